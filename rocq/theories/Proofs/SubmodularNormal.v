From Coq Require Import ZArith List Bool Lia.
From Verif Require Import Lib.Grid Model.Submodular Spec.Submodular Proofs.Submodular Proofs.SubmodularLinear.
Import ListNotations.
Open Scope Z_scope.

Ltac win := first [assumption | apply within_lor; [lia|win|win] | apply within_land; [lia|win]].
Lemma weigh_modular m psi A B : weigh m psi (Z.lor A B) + weigh m psi (Z.land A B) = weigh m psi A + weigh m psi B.
Proof.
  induction m as [|m IH]; [reflexivity|]. cbn [weigh]. rewrite Z.lor_spec, Z.land_spec.
  destruct (Z.testbit A (Z.of_nat m)), (Z.testbit B (Z.of_nat m)); cbn [orb andb]; lia.
Qed.
Lemma submodular_linear n psi f g c : 0 <= n -> (forall S, within n S -> g S = f S + weight n psi S + c) -> (submodular n g <-> submodular n f).
Proof.
  intros Hn H. split; intros G A B HA HB; specialize (G A B HA HB);
    assert (X := weigh_modular (Z.to_nat n) psi A B); fold (weight n psi (Z.lor A B)) (weight n psi (Z.land A B)) (weight n psi A) (weight n psi B) in X;
    rewrite (H A), (H B), (H (Z.lor A B)), (H (Z.land A B)) in * by win; lia.
Qed.
Lemma add_linear_submodular z n psi f g : 0 <= n -> add_linear z n psi f = Done g -> (submodular n g <-> submodular n f).
Proof.
  intros Hn E. destruct (add_linear_ok z n psi f Hn) as (h & E' & A & _). rewrite E in E'. injection E' as <-.
  apply (submodular_linear n psi f g 0 Hn). intros S H. rewrite A by assumption. lia.
Qed.

Lemma whole_succ m : 0 <= m -> Z.lor (whole m) (2 ^ m) = whole (m + 1).
Proof.
  intros Hm. apply bits_ext. intros b Hb. rewrite Z.lor_spec, !whole_spec, pow_spec by lia.
  destruct (Z.ltb_spec b m), (Z.ltb_spec b (m + 1)), (Z.eqb_spec m b); lia || reflexivity.
Qed.
Lemma zseq_last a m : zseq a (S m) = zseq a m ++ [a + Z.of_nat m].
Proof. replace (S m) with (m + 1)%nat by lia. rewrite zseq_app. f_equal. cbn [zseq seq map]. f_equal. lia. Qed.
Lemma norm_walk f psi m : let r := fold_left (norm_step f) (zseq 0 m) (0, psi) in
  fst r = whole (Z.of_nat m) /\ (forall i, 0 <= i < Z.of_nat m -> snd r i = f (whole i) - f (whole (i + 1))) /\ (forall i, ~ 0 <= i < Z.of_nat m -> snd r i = psi i).
Proof.
  induction m as [|m IH]; [split; [reflexivity|]; split; [intros; lia|reflexivity]|].
  cbv zeta in *. rewrite zseq_last, fold_left_app. destruct (fold_left (norm_step f) (zseq 0 m) (0, psi)) as [t p]. cbn [fst snd] in IH. destruct IH as (-> & A & B).
  unfold norm_step. cbn [fold_left fst snd]. rewrite Z.add_0_l, whole_succ by lia. replace (Z.of_nat m + 1) with (Z.of_nat (S m)) by lia.
  split; [reflexivity|]. unfold upd. split; intros i Hi; destruct (Z.eqb_spec i (Z.of_nat m)) as [->|N].
  - repeat f_equal. lia.
  - apply A. lia.
  - lia.
  - apply B. lia.
Qed.
(* the sum of the steps of the chain of the first elements *)
Lemma weigh_chain f psi m n S : 0 <= n -> local n f -> within n S -> Z.of_nat m <= n -> (forall i, 0 <= i < Z.of_nat m -> psi i = f (whole i) - f (whole (i + 1))) ->
  f 0 <= f (chain 0 S (Z.of_nat m)) + weigh m psi S.
Proof.
  intros Hn L HS. induction m as [|m IH]; intros Hm H; [cbn [weigh Z.of_nat]; rewrite chain_0; lia|].
  specialize (IH ltac:(lia) ltac:(intros; apply H; lia)). cbn [weigh]. rewrite H by lia. replace (Z.of_nat (Datatypes.S m)) with (Z.of_nat m + 1) by lia.
  destruct (Z.testbit S (Z.of_nat m)) eqn:E.
  - rewrite chain_take by (lia || assumption). rewrite <- whole_succ by lia.
    assert (M := marginal n f (chain 0 S (Z.of_nat m)) (whole (Z.of_nat m)) (Z.of_nat m) Hn L).
    assert (Wm : within n (whole (Z.of_nat m))).
    { unfold within, whole. assert (0 < 2 ^ Z.of_nat m) by (apply pow_pos; lia). assert (2 ^ Z.of_nat m <= 2 ^ n) by (apply Z.pow_le_mono_r; lia). lia. }
    specialize (M ltac:(apply within_chain; [lia|lia|apply within_0; lia|assumption]) Wm).
    specialize (M ltac:(intros b Hb; rewrite chain_spec, whole_spec, Z.bits_0 by lia; cbn [orb]; intros X; apply andb_true_iff in X; tauto) ltac:(lia)).
    specialize (M ltac:(rewrite whole_spec, Z.ltb_irrefl by lia; reflexivity)). lia.
  - rewrite chain_skip by (try lia; right; assumption). lia.
Qed.
Lemma weigh_total f psi m : (forall i, 0 <= i < Z.of_nat m -> psi i = f (whole i) - f (whole (i + 1))) -> forall S,
  (forall i, 0 <= i < Z.of_nat m -> Z.testbit S i = true) -> weigh m psi S = f 0 - f (whole (Z.of_nat m)).
Proof.
  induction m as [|m IH]; intros H S HS; [cbn; unfold whole; cbn; lia|]. cbn [weigh]. rewrite IH by (intros; try apply H; try apply HS; lia).
  rewrite HS, H by lia. replace (Z.of_nat (Datatypes.S m)) with (Z.of_nat m + 1) by lia. lia.
Qed.

Lemma normalize_ok z n f psi : 0 <= n -> submodular n f -> exists g p, normalize z n f psi = Done (Some (g, p)) /\
  (forall S, within n S -> g S = f S - f 0 + weight n p S) /\ (forall S, within n S -> 0 <= g S) /\ g 0 = 0 /\ g (whole n) = 0 /\ submodular n g /\
  (forall i, ~ 0 <= i < n -> p i = psi i).
Proof.
  intros Hn Sub. assert (P := pow_pos n Hn). set (f0 := fun s => f s - f 0). set (p := snd (fold_left (norm_step f0) (zrange 0 n) (0, psi))).
  destruct (norm_walk f0 psi (Z.to_nat n)) as (_ & A & B). cbv zeta in A, B. fold (zrange 0 n) in A, B. fold p in A, B.
  destruct (add_linear_ok z n p f0 Hn) as (g & E & G & _). exists g, p.
  assert (L : local n f0).
  { apply local_global; [assumption|]. intros a b Ha Hb. specialize (Sub a b Ha Hb). unfold f0. lia. }
  assert (F : forall S, within n S -> g S = f S - f 0 + weight n p S) by (intros S H; rewrite G by assumption; reflexivity).
  assert (Pos : forall S, within n S -> 0 <= g S).
  { intros S H. rewrite G by assumption. assert (X := weigh_chain f0 p (Z.to_nat n) n S Hn L H ltac:(lia) A).
    rewrite Z2Nat.id in X by lia. rewrite (chain_n n) in X by assumption. rewrite Z.lor_0_l in X. fold (weight n p S) in X. unfold f0 in *. lia. }
  assert (G0 : g 0 = 0) by (rewrite F by (apply within_0; assumption); rewrite weight_0; lia).
  assert (GV : g (whole n) = 0).
  { rewrite F by (apply within_whole; assumption). unfold weight. rewrite (weigh_total f0 p (Z.to_nat n) A).
    - rewrite Z2Nat.id by lia. unfold f0. lia.
    - intros i Hi. rewrite Z2Nat.id in Hi by lia. rewrite whole_spec by lia. apply Z.ltb_lt. lia. }
  split; [|repeat split; try assumption].
  - unfold normalize. fold f0 p. rewrite E. cbn [bind]. fold (whole n). rewrite G0, GV.
    replace (forallb (fun s => 0 <=? g s) (zrange 0 (2 ^ n))) with true; [reflexivity|]. symmetry. apply forallb_forall. intros s Hs. apply in_zrange in Hs.
    apply Z.leb_le. apply Pos. unfold within. lia.
  - apply (submodular_linear n p f g (- f 0) Hn); [|assumption]. intros S H. rewrite F by assumption. lia.
  - intros i Hi. apply B. rewrite Z2Nat.id by lia. exact Hi.
Qed.

(* sets of zero gain *)
Lemma negation s k : 0 <= k -> within k s -> 2 ^ k - 1 - s = Z.ldiff (whole k) s.
Proof.
  intros Hk H. fold (whole k). apply Z.sub_nocarry_ldiff. apply bits_ext. intros b Hb. rewrite Z.ldiff_spec, whole_spec, Z.bits_0 by lia.
  destruct (Z.ltb_spec b k); [apply andb_false_r|]. rewrite (bit_high k s b) by assumption. reflexivity.
Qed.
Lemma not_s_spec n s S : 0 <= n <= 32 -> within 32 s -> within n S -> Z.land S (Z.land (2 ^ n - 1) (2 ^ 32 - 1 - s)) = Z.ldiff S s.
Proof.
  intros Hn Hs H. rewrite (negation s 32) by (lia || assumption). fold (whole n). apply bits_ext. intros b Hb.
  rewrite !Z.land_spec, !Z.ldiff_spec, !whole_spec by lia. destruct (Z.ltb_spec b n).
  - destruct (Z.ltb_spec b 32); [reflexivity|lia].
  - rewrite (bit_high n S b) by assumption. reflexivity.
Qed.
Lemma ldiff_le S s : 0 <= S -> 0 <= Z.ldiff S s <= S.
Proof. intros H. split; [apply Z.ldiff_nonneg; left; assumption|]. apply Z.ldiff_le. assumption. apply bits_ext. intros b Hb. rewrite !Z.ldiff_spec, Z.bits_0. destruct (Z.testbit S b), (Z.testbit s b); reflexivity. Qed.
Lemma zero_walk ns f m : let r := fold_left (fun f t => upd f t (f (Z.land t ns))) (zseq 0 m) f in
  (forall S, 0 <= S < Z.of_nat m -> r S = f (Z.land S ns)) /\ (forall S, ~ 0 <= S < Z.of_nat m -> r S = f S).
Proof.
  induction m as [|m IH]; [split; [intros; lia|reflexivity]|]. cbv zeta in *. rewrite zseq_last, fold_left_app. cbn [fold_left].
  set (r := fold_left _ (zseq 0 m) f) in *. destruct IH as [A B]. rewrite Z.add_0_l. unfold upd.
  assert (E : r (Z.land (Z.of_nat m) ns) = f (Z.land (Z.of_nat m) ns)).
  { set (u := Z.land (Z.of_nat m) ns). destruct (Z_lt_le_dec u (Z.of_nat m)) as [L|L].
    - rewrite A by (split; [apply Z.land_nonneg; left; lia|exact L]). f_equal. unfold u. rewrite <- Z.land_assoc, Z.land_diag. reflexivity.
    - apply B. lia. }
  split; intros S H; destruct (Z.eqb_spec S (Z.of_nat m)) as [->|N]; [exact E|apply A; lia|lia|apply B; lia].
Qed.
Lemma zero_marginal_ok n s f : 0 <= n < 32 -> within 32 s -> (forall S, within n S -> zero_marginal n s f S = f (Z.ldiff S s)) /\ contained n (zero_marginal n s f) f.
Proof.
  intros Hn Hs. assert (P := pow_pos n ltac:(lia)). unfold zero_marginal. cbv zeta. destruct (zero_walk (Z.land (2 ^ n - 1) (2 ^ 32 - 1 - s)) f (Z.to_nat (2 ^ n))) as [A B].
  cbv zeta in A, B. fold (zrange 0 (2 ^ n)) in A, B. rewrite Z2Nat.id in A, B by lia. split.
  - intros S H. rewrite A by exact H. f_equal. apply not_s_spec; [lia|assumption|assumption].
  - intros S H. apply B. exact H.
Qed.
Lemma within_ldiff n A B : 0 <= n -> within n A -> within n (Z.ldiff A B).
Proof. intros Hn H. assert (X := ldiff_le A B ltac:(destruct H; lia)). unfold within in *. lia. Qed.
Lemma zero_marginal_submodular n s f : 0 <= n < 32 -> within 32 s -> submodular n f -> submodular n (zero_marginal n s f).
Proof.
  intros Hn Hs Sub A B HA HB. destruct (zero_marginal_ok n s f Hn Hs) as [E _].
  rewrite !E by win.
  specialize (Sub (Z.ldiff A s) (Z.ldiff B s) ltac:(apply within_ldiff; [lia|assumption]) ltac:(apply within_ldiff; [lia|assumption])).
  replace (Z.ldiff (Z.lor A B) s) with (Z.lor (Z.ldiff A s) (Z.ldiff B s)) by (apply bits_ext; intros b Hb; rewrite !Z.lor_spec, !Z.ldiff_spec, Z.lor_spec; destruct (Z.testbit A b), (Z.testbit B b), (Z.testbit s b); reflexivity).
  replace (Z.ldiff (Z.land A B) s) with (Z.land (Z.ldiff A s) (Z.ldiff B s)) by (apply bits_ext; intros b Hb; rewrite !Z.land_spec, !Z.ldiff_spec, Z.land_spec; destruct (Z.testbit A b), (Z.testbit B b), (Z.testbit s b); reflexivity).
  exact Sub.
Qed.

(* the check of upper bounds *)
Lemma fold_max (f : Z -> Z) l lowest v : v < fold_left (fun m s => Z.max (f s) m) l lowest <-> v < lowest \/ exists s, In s l /\ v < f s.
Proof.
  revert lowest. induction l as [|a l IH]; intros lowest; cbn [fold_left].
  - split; [tauto|]. intros [H|(s & [] & _)]. exact H.
  - rewrite IH. split.
    + intros [H|(s & I & H)]; [|right; exists s; split; [right|]; assumption].
      destruct (Z_lt_le_dec v lowest); [left; assumption|right; exists a; split; [left; reflexivity|lia]].
    + intros [H|(s & [->|I] & H)]; [left; lia|left; lia|right; exists s; auto].
Qed.
Lemma check_upper_ok lowest n f g : 0 <= n -> (exists S, within n S /\ lowest <= f S) ->
  (check_upper lowest n f g = true <-> below n f g /\ (forall i, 0 <= i < n -> exists S, within n S /\ g (2 ^ i) <= f S) /\ submodular n g).
Proof.
  intros Hn (S0 & HS0 & Low). unfold check_upper. cbv zeta. set (top := fold_left _ _ lowest). rewrite !andb_true_iff, check_iff, !forallb_forall by assumption.
  assert (T : forall v, v <= top <-> exists S, within n S /\ v <= f S).
  { intros v. assert (X := fold_max f (zrange 0 (2 ^ n)) lowest (v - 1)). fold top in X. split.
    - intros H. destruct (proj1 X ltac:(lia)) as [Y|(s & I & Y)]; [exists S0; split; [assumption|lia]|]. apply in_zrange in I. exists s. unfold within. split; lia.
    - intros (S & HS & H). enough (v - 1 < top) by lia. apply X. right. exists S. split; [apply in_zrange; unfold within in HS; lia|lia]. }
  split.
  - intros [[A B] C]. split; [|split; [|exact C]].
    + intros S H. specialize (A S ltac:(apply in_zrange; unfold within in H; lia)). apply negb_true_iff, Z.ltb_ge in A. exact A.
    + intros i Hi. specialize (B i ltac:(apply in_zrange; lia)). apply negb_true_iff, Z.ltb_ge in B. apply T. exact B.
  - intros (A & B & C). split; [split|exact C].
    + intros s H. apply in_zrange in H. apply negb_true_iff, Z.ltb_ge. apply A. unfold within. lia.
    + intros i H. apply in_zrange in H. apply negb_true_iff, Z.ltb_ge. apply T. apply B. lia.
Qed.
