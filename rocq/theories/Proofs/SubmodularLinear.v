From Coq Require Import ZArith List Bool Lia.
From Verif Require Import Lib.Grid Model.Submodular Spec.Submodular Proofs.Submodular.
Import ListNotations.
Open Scope Z_scope.

(* weights *)
Lemma weigh_ext m psi S T : (forall i, 0 <= i < Z.of_nat m -> Z.testbit S i = Z.testbit T i) -> weigh m psi S = weigh m psi T.
Proof. induction m as [|m IH]; intros H; [reflexivity|]. cbn [weigh]. rewrite IH by (intros; apply H; lia). rewrite H by lia. reflexivity. Qed.
Lemma flip_spec S c b : 0 <= c -> Z.testbit (Z.lxor S (2 ^ c)) b = if c =? b then negb (Z.testbit S b) else Z.testbit S b.
Proof. intros Hc. rewrite Z.lxor_spec, pow_spec by lia. destruct (c =? b); [apply xorb_true_r|apply xorb_false_r]. Qed.
Lemma weigh_flip m psi S c : 0 <= c < Z.of_nat m -> weigh m psi (Z.lxor S (2 ^ c)) = weigh m psi S + (if Z.testbit S c then - psi c else psi c).
Proof.
  induction m as [|m IH]; intros H; [lia|]. cbn [weigh]. rewrite flip_spec by lia. destruct (Z.eqb_spec c (Z.of_nat m)) as [->|N].
  - rewrite (weigh_ext m psi _ S) by (intros i Hi; rewrite flip_spec by lia; destruct (Z.eqb_spec (Z.of_nat m) i); [lia|reflexivity]).
    destruct (Z.testbit S (Z.of_nat m)); cbn [negb]; lia.
  - rewrite IH by lia. destruct (Z.testbit S c); lia.
Qed.
Lemma weight_flip n psi S c : 0 <= c < n -> weight n psi (Z.lxor S (2 ^ c)) = weight n psi S + (if Z.testbit S c then - psi c else psi c).
Proof. intros H. apply weigh_flip. lia. Qed.
Lemma weight_0 n psi : weight n psi 0 = 0.
Proof. unfold weight. induction (Z.to_nat n) as [|m IH]; [reflexivity|]. cbn [weigh]. rewrite IH, Z.bits_0. reflexivity. Qed.
Lemma without_spec n S i : 0 <= n -> 0 <= i -> Z.testbit (without n S) i = (i <? n) && negb (Z.testbit S i).
Proof. intros Hn Hi. unfold without. rewrite Z.ldiff_spec, whole_spec by lia. reflexivity. Qed.
Lemma weight_out n psi S c : 0 <= c < n -> weight n psi (without n (Z.lxor S (2 ^ c))) = weight n psi (without n S) + (if Z.testbit S c then psi c else - psi c).
Proof.
  intros H. transitivity (weight n psi (Z.lxor (without n S) (2 ^ c))).
  - apply weigh_ext. intros i Hi. rewrite Z2Nat.id in Hi by lia. rewrite flip_spec, !without_spec, flip_spec by lia.
    destruct (Z.ltb_spec i n); [|lia]. destruct (Z.eqb_spec c i); reflexivity.
  - rewrite weight_flip by lia. rewrite without_spec by lia. destruct (Z.ltb_spec c n); [|lia]. destruct (Z.testbit S c); reflexivity.
Qed.
Lemma weigh_whole m psi S : (forall i, 0 <= i < Z.of_nat m -> Z.testbit S i = true) -> weigh m psi S = fold_left (fun sum i => sum + psi i) (zseq 0 m) 0.
Proof.
  induction m as [|m IH]; intros H; [reflexivity|]. replace (Datatypes.S m) with (m + 1)%nat at 2 by lia. rewrite zseq_app, fold_left_app. cbn [weigh].
  rewrite <- IH by (intros; apply H; lia). rewrite H by lia. cbn [zseq seq map fold_left]. replace (0 + Z.of_nat m + Z.of_nat 0) with (Z.of_nat m) by lia. reflexivity.
Qed.

(* the order in which the sets come *)
Lemma gray_spec a b : 0 <= b -> Z.testbit (gray a) b = xorb (Z.testbit a b) (Z.testbit a (b + 1)).
Proof. intros Hb. unfold gray. rewrite Z.lxor_spec, Z.shiftr_spec by lia. reflexivity. Qed.
Lemma gray_lxor a b : gray (Z.lxor a b) = Z.lxor (gray a) (gray b).
Proof.
  apply bits_ext. intros i Hi. rewrite Z.lxor_spec, !gray_spec, !Z.lxor_spec by lia.
  destruct (Z.testbit a i), (Z.testbit b i), (Z.testbit a (i + 1)), (Z.testbit b (i + 1)); reflexivity.
Qed.
Lemma gray_zero a : 0 <= a -> gray a = 0 -> a = 0.
Proof. intros H E. unfold gray in E. apply Z.lxor_eq in E. rewrite Z.shiftr_div_pow2, Z.pow_1_r in E by lia. assert (2 * (a / 2) <= a) by (apply Z.mul_div_le; lia). lia. Qed.
Lemma gray_inj a b : 0 <= a -> 0 <= b -> gray a = gray b -> a = b.
Proof.
  intros Ha Hb E. apply Z.lxor_eq. apply gray_zero; [apply Z.lxor_nonneg; lia|]. rewrite gray_lxor, E. apply Z.lxor_nilpotent.
Qed.
Lemma gray_within n a : 0 <= n -> within n a -> within n (gray a).
Proof.
  intros Hn H. apply within_lxor; [lia|assumption|]. destruct H. rewrite Z.shiftr_div_pow2, Z.pow_1_r by lia.
  assert (2 * (a / 2) <= a) by (apply Z.mul_div_le; lia). assert (0 <= a / 2) by (apply Z.div_pos; lia). split; lia.
Qed.
Lemma gray_surj_nat m S : within (Z.of_nat m) S -> exists a, within (Z.of_nat m) a /\ gray a = S.
Proof.
  revert S. induction m as [|m IH]; intros S H.
  - exists 0. unfold within in *. cbn in *. split; [lia|]. replace S with 0 by lia. reflexivity.
  - destruct (IH (Z.div2 S)) as (a & Ha & E).
    + unfold within in *. rewrite Nat2Z.inj_succ, Z.pow_succ_r in H by lia. rewrite Z.div2_div. split; [apply Z.div_pos; lia|apply Z.div_lt_upper_bound; lia].
    + exists (2 * a + Z.b2z (xorb (Z.testbit S 0) (Z.testbit a 0))). split.
      * unfold within in *. rewrite Nat2Z.inj_succ, Z.pow_succ_r by lia. destruct (xorb _ _); cbn [Z.b2z]; lia.
      * apply bits_ext. intros i Hi. rewrite gray_spec by lia. destruct (Z.eq_dec i 0) as [->|N].
        -- rewrite Z.testbit_0_r. replace (0 + 1) with (Z.succ 0) by lia. rewrite Z.testbit_succ_r by lia.
           destruct (Z.testbit S 0), (Z.testbit a 0); reflexivity.
        -- replace i with (Z.succ (i - 1)) at 1 by lia. replace (i + 1) with (Z.succ i) by lia. rewrite !Z.testbit_succ_r by lia.
           assert (X : Z.testbit (gray a) (i - 1) = Z.testbit (Z.div2 S) (i - 1)) by (rewrite E; reflexivity).
           rewrite gray_spec in X by lia. replace (i - 1 + 1) with i in X by lia. rewrite X, Z.div2_spec, Z.shiftr_spec by lia. f_equal. lia.
Qed.
Lemma gray_surj n S : 0 <= n -> within n S -> exists a, within n a /\ gray a = S.
Proof. intros Hn H. rewrite <- (Z2Nat.id n) in H |- * by lia. apply gray_surj_nat. exact H. Qed.
Lemma ctzp_nonneg p : 0 <= ctzp p.
Proof. induction p; cbn [ctzp]; lia. Qed.
Lemma lxor_pred p : Z.lxor (Zpos p) (Zpos p - 1) = 2 ^ (ctzp p + 1) - 1.
Proof.
  induction p as [p IH|p IH|]; [| |reflexivity].
  - rewrite Pos2Z.inj_xI. replace (2 * Zpos p + 1 - 1) with (2 * Zpos p) by lia. cbn [ctzp]. change (2 ^ (0 + 1) - 1) with 1.
    apply bits_ext. intros i Hi. rewrite Z.lxor_spec. destruct (Z.eq_dec i 0) as [->|N].
    + rewrite Z.testbit_odd_0, Z.testbit_even_0. reflexivity.
    + replace i with (Z.succ (i - 1)) by lia. rewrite Z.testbit_odd_succ, Z.testbit_even_succ by lia. rewrite xorb_nilpotent.
      change 1 with (2 * 0 + 1). rewrite Z.testbit_odd_succ, Z.bits_0 by lia. reflexivity.
  - rewrite Pos2Z.inj_xO. cbn [ctzp]. assert (C := ctzp_nonneg p).
    replace (2 ^ (1 + ctzp p + 1) - 1) with (2 * (2 ^ (ctzp p + 1) - 1) + 1) by (replace (1 + ctzp p + 1) with (Z.succ (ctzp p + 1)) by lia; rewrite Z.pow_succ_r by lia; lia).
    replace (2 * Zpos p - 1) with (2 * (Zpos p - 1) + 1) by lia. rewrite <- IH.
    apply bits_ext. intros i Hi. rewrite Z.lxor_spec. destruct (Z.eq_dec i 0) as [->|N].
    + rewrite !Z.testbit_odd_0, Z.testbit_even_0. reflexivity.
    + replace i with (Z.succ (i - 1)) by lia. rewrite !Z.testbit_odd_succ, Z.testbit_even_succ, Z.lxor_spec by lia. reflexivity.
Qed.
Lemma gray_ones c : 0 <= c -> gray (2 ^ (c + 1) - 1) = 2 ^ c.
Proof.
  intros Hc. apply bits_ext. intros i Hi. rewrite gray_spec, pow_spec by lia. fold (whole (c + 1)). rewrite !whole_spec by lia.
  destruct (Z.ltb_spec i (c + 1)), (Z.ltb_spec (i + 1) (c + 1)), (Z.eqb_spec c i); try lia; reflexivity.
Qed.
Lemma gray_step p : Z.lxor (gray (Zpos p)) (gray (Zpos p - 1)) = 2 ^ ctzp p.
Proof. rewrite <- gray_lxor, lxor_pred. apply gray_ones. apply ctzp_nonneg. Qed.
Lemma ctzp_pow c p : 0 <= c -> Zpos p = 2 ^ c -> ctzp p = c.
Proof.
  intros Hc. revert p. pattern c. apply natlike_ind; [|intros k Hk IH|assumption].
  - intros p E. cbn in E. injection E as ->. reflexivity.
  - intros p E. rewrite Z.pow_succ_r in E by lia. assert (0 < 2 ^ k) by (apply pow_pos; lia).
    destruct p as [p|p|]; [rewrite Pos2Z.inj_xI in E; lia| |lia]. rewrite Pos2Z.inj_xO in E. cbn [ctzp]. rewrite (IH p) by lia. lia.
Qed.
Lemma ctz_pow z c : 0 <= c -> ctz z (2 ^ c) = Done c.
Proof.
  intros Hc. assert (P := pow_pos c Hc). destruct (2 ^ c) as [|p|p] eqn:E; try lia. cbn [ctz]. rewrite (ctzp_pow c p) by (lia || auto). reflexivity.
Qed.
Lemma ctzp_bound n p : 0 <= n -> Zpos p < 2 ^ n -> ctzp p < n.
Proof.
  intros Hn H. assert (G : 2 ^ ctzp p <= Zpos p).
  { clear. induction p as [p IH|p IH|]; cbn [ctzp]; [cbn; lia| |cbn; lia]. rewrite Z.pow_add_r, Z.pow_1_r by (try lia; apply ctzp_nonneg). lia. }
  destruct (Z_lt_le_dec (ctzp p) n) as [|L]; [assumption|]. assert (2 ^ n <= 2 ^ ctzp p) by (apply Z.pow_le_mono_r; lia). lia.
Qed.
Lemma flip_back g h c : Z.lxor g h = 2 ^ c -> g = Z.lxor h (2 ^ c).
Proof. intros <-. rewrite (Z.lxor_comm g h), <- Z.lxor_assoc, Z.lxor_nilpotent, Z.lxor_0_l. reflexivity. Qed.
Lemma land_pow g c : 0 <= c -> (Z.land g (2 ^ c) =? 0) = negb (Z.testbit g c).
Proof.
  intros Hc. destruct (Z.testbit g c) eqn:E; cbn [negb].
  - apply Z.eqb_neq. intros X. assert (Y : Z.testbit (Z.land g (2 ^ c)) c = false) by (rewrite X; apply Z.bits_0).
    rewrite Z.land_spec, E, pow_spec, Z.eqb_refl in Y by lia. discriminate.
  - apply Z.eqb_eq. apply bits_ext. intros b Hb. rewrite Z.land_spec, pow_spec, Z.bits_0 by lia. destruct (Z.eqb_spec c b) as [<-|]; [rewrite E; reflexivity|apply andb_false_r].
Qed.

(* one loop for both functions *)
Section Gray.
Variables (ctz0 : option Z) (n : Z) (delta : Z -> Z) (op : Z -> Z -> Z) (W : Z -> Z).
Hypothesis Hn : 0 <= n.
Hypothesis HW : forall S c, 0 <= c < n -> W (Z.lxor S (2 ^ c)) = W S + (if Z.testbit S c then - delta c else delta c).
Definition gstep (st : run (Z * Z * table)) (a : Z) : run (Z * Z * table) :=
  bind st (fun '(sum, last, f) =>
    let g := gray a in
    let diff := Z.lxor g last in
    bind (ctz ctz0 diff) (fun c =>
      let sum := if Z.land g diff =? 0 then sum - delta c else sum + delta c in
      Done (sum, g, upd f g (op (f g) sum)))).
Lemma gray_walk (m : nat) f : Z.of_nat m < 2 ^ n -> exists fm,
  fold_left gstep (zseq 1 m) (Done (W 0, 0, f)) = Done (W (gray (Z.of_nat m)), gray (Z.of_nat m), fm) /\
  (forall a, 1 <= a <= Z.of_nat m -> fm (gray a) = op (f (gray a)) (W (gray a))) /\
  (forall S, (forall a, 1 <= a <= Z.of_nat m -> gray a <> S) -> fm S = f S).
Proof.
  induction m as [|m IH]; intros Hm.
  - exists f. split; [reflexivity|]. split; [intros; lia|reflexivity].
  - destruct IH as (fm & E & A & B); [lia|]. assert (Q : zseq 1 (S m) = zseq 1 m ++ [Z.of_nat (S m)]).
    { replace (S m) with (m + 1)%nat at 1 by lia. rewrite zseq_app. f_equal. cbn [zseq seq map]. f_equal. lia. }
    rewrite Q, fold_left_app, E. cbn [fold_left].
    assert (P : exists p, Z.of_nat (S m) = Zpos p) by (exists (Pos.of_succ_nat m); reflexivity). destruct P as [p P].
    assert (G := gray_step p). rewrite <- P in G. replace (Z.of_nat (S m) - 1) with (Z.of_nat m) in G by lia.
    assert (C := ctzp_nonneg p). assert (Cn : ctzp p < n) by (apply (ctzp_bound n); lia).
    set (g := gray (Z.of_nat (S m))) in *. set (h := gray (Z.of_nat m)) in *.
    assert (F := flip_back _ _ _ G). cbn [gstep bind]. fold g. rewrite G, ctz_pow by lia. cbn [bind]. rewrite land_pow by lia.
    assert (Wg : (if negb (Z.testbit g (ctzp p)) then W h - delta (ctzp p) else W h + delta (ctzp p)) = W g).
    { rewrite F, flip_spec, Z.eqb_refl, HW by lia. rewrite negb_involutive. destruct (Z.testbit h (ctzp p)); lia. }
    rewrite Wg. eexists. split; [reflexivity|]. split.
    + intros a Ha. unfold upd. destruct (Z.eqb_spec (gray a) g) as [X|X].
      * rewrite X. f_equal. apply B. intros a' Ha' Y. apply gray_inj in Y; lia.
      * apply A. assert (a <> Z.of_nat (S m)) by (intros ->; apply X; reflexivity). lia.
    + intros S H. unfold upd. destruct (Z.eqb_spec S g) as [->|X]; [exfalso; apply (H (Z.of_nat (Datatypes.S m))); [lia|reflexivity]|].
      apply B. intros a Ha. apply H. lia.
Qed.
Lemma gray_all f : exists fm last sum, fold_left gstep (zrange 1 (2 ^ n - 1)) (Done (W 0, 0, f)) = Done (sum, last, fm) /\
  (forall S, within n S -> S <> 0 -> fm S = op (f S) (W S)) /\ (forall S, ~ within n S \/ S = 0 -> fm S = f S).
Proof.
  assert (P := pow_pos n Hn). destruct (gray_walk (Z.to_nat (2 ^ n - 1)) f) as (fm & E & A & B); [lia|].
  exists fm, (gray (Z.of_nat (Z.to_nat (2 ^ n - 1)))), (W (gray (Z.of_nat (Z.to_nat (2 ^ n - 1))))). split; [exact E|]. rewrite Z2Nat.id in A, B by lia. split.
  - intros S H N. destruct (gray_surj n S Hn H) as (a & Ha & <-). apply A. unfold within in Ha. assert (a <> 0) by (intros ->; apply N; reflexivity). lia.
  - intros S H. apply B. intros a Ha X. assert (within n (gray a)) by (apply gray_within; unfold within; lia).
    destruct H as [H|H]; [rewrite <- X in H; tauto|]. assert (a = 0) by (apply gray_zero; [lia|congruence]). lia.
Qed.
End Gray.

Lemma fold_left_ext {A B} (f g : A -> B -> A) l a : (forall a b, f a b = g a b) -> fold_left f l a = fold_left g l a.
Proof. intros H. revert a. induction l as [|b l IH]; intros a; cbn; [reflexivity|]. rewrite H. apply IH. Qed.

Lemma add_linear_ok z n psi f : 0 <= n -> exists g, add_linear z n psi f = Done g /\ (forall S, within n S -> g S = f S + weight n psi S) /\ contained n g f.
Proof.
  intros Hn. destruct (gray_all z n psi Z.add (weight n psi) Hn (fun S c H => weight_flip n psi S c H) f) as (g & l & s & E & A & B).
  exists g. split; [|split].
  - unfold add_linear. rewrite (fold_left_ext _ (gstep z psi Z.add)).
    + rewrite weight_0 in E. rewrite E. reflexivity.
    + reflexivity.
  - intros S H. destruct (Z.eq_dec S 0) as [->|N]; [rewrite B, weight_0 by (right; reflexivity); lia|apply A; assumption].
  - intros S H. apply B. left. exact H.
Qed.
Lemma subtract_linear_ok z n psi1 psi2 f : 0 <= n -> exists g, subtract_linear z n psi1 psi2 f = Done g /\
  (forall S, within n S -> g S = f S - weight n psi1 S - weight n psi2 (without n S)) /\ contained n g f.
Proof.
  intros Hn. set (W := fun S => weight n psi1 S + weight n psi2 (without n S)).
  assert (HW : forall S c, 0 <= c < n -> W (Z.lxor S (2 ^ c)) = W S + (if Z.testbit S c then - (psi1 c - psi2 c) else psi1 c - psi2 c)).
  { intros S c H. unfold W. rewrite weight_flip, weight_out by lia. destruct (Z.testbit S c); lia. }
  assert (W0 : fold_left (fun sum i => sum + psi2 i) (zrange 0 n) 0 = W 0).
  { unfold W. rewrite weight_0. unfold weight, zrange. rewrite weigh_whole; [lia|]. intros i Hi. rewrite Z2Nat.id in Hi by lia.
    rewrite without_spec, Z.bits_0 by lia. destruct (Z.ltb_spec i n); [reflexivity|lia]. }
  destruct (gray_all z n (fun c => psi1 c - psi2 c) Z.sub W Hn HW (upd f 0 (f 0 - W 0))) as (g & l & s & E & A & B).
  exists g. split; [|split].
  - unfold subtract_linear. rewrite W0. rewrite (fold_left_ext _ (gstep z (fun c => psi1 c - psi2 c) Z.sub)).
    + rewrite E. reflexivity.
    + intros st a. unfold subtract_step, gstep. destruct st as [[[sum last] h]| | |]; try reflexivity. cbn [bind].
      destruct (ctz z (Z.lxor (gray a) last)) as [c| | |]; try reflexivity. cbn [bind].
      replace (sum + (psi2 c - psi1 c)) with (sum - (psi1 c - psi2 c)) by lia. reflexivity.
  - intros S H. destruct (Z.eq_dec S 0) as [->|N].
    + rewrite B by (right; reflexivity). unfold upd, W. cbn [Z.eqb]. lia.
    + rewrite A by assumption. unfold upd. destruct (Z.eqb_spec S 0); [lia|]. unfold W. lia.
  - intros S H. rewrite B by (left; exact H). unfold upd. destruct (Z.eqb_spec S 0) as [->|]; [exfalso; apply H; apply within_0; exact Hn|reflexivity].
Qed.
