(* The walk of Model.PrimalDual over all assignments meets each of them once. *)
From Coq Require Import ZArith List Bool Lia.
From Verif Require Import Lib.Grid Spec.FusionTerms Model.FusionTerms Model.StereoMoves Proofs.StereoMoves Proofs.StereoEnergy Model.PrimalDual.
Import ListNotations.
Local Open Scope Z_scope.

Lemma gray_bit a i : 0 <= i -> Z.testbit (gray a) i = xorb (Z.testbit a i) (Z.testbit a (i + 1)).
Proof. intro H. unfold gray. rewrite Z.lxor_spec, Z.shiftr_spec by exact H. reflexivity. Qed.
Lemma gray_lxor a b : gray (Z.lxor a b) = Z.lxor (gray a) (gray b).
Proof. apply Z.bits_inj'. intros i H. rewrite Z.lxor_spec, !gray_bit, !Z.lxor_spec by exact H. now destruct (Z.testbit a i), (Z.testbit b i), (Z.testbit a (i + 1)), (Z.testbit b (i + 1)). Qed.
Lemma gray_inj a b : 0 <= a -> 0 <= b -> gray a = gray b -> a = b.
Proof.
  intros Ha Hb E. assert (G : gray (Z.lxor a b) = 0) by (rewrite gray_lxor, E; apply Z.lxor_nilpotent). unfold gray in G. apply Z.lxor_eq in G. rewrite Z.shiftr_div_pow2 in G by lia. change (2 ^ 1) with 2 in G.
  assert (0 <= Z.lxor a b) by (apply Z.lxor_nonneg; tauto). assert (Z.lxor a b = 0) by (pose proof (Z.div_mod (Z.lxor a b) 2 ltac:(lia)); pose proof (Z.mod_pos_bound (Z.lxor a b) 2 ltac:(lia)); lia). now apply Z.lxor_eq.
Qed.
Lemma gray_0 : gray 0 = 0. Proof. reflexivity. Qed.
Lemma bits_split m : exists q b, m = 2 * q + Z.b2z b.
Proof. exists (Z.div2 m), (Z.odd m). apply Z.div2_odd. Qed.
Lemma gray_surj n m : 0 <= n -> 0 <= m < 2 ^ n -> exists a, 0 <= a < 2 ^ n /\ gray a = m.
Proof.
  intro Hn. revert m. pattern n. apply natlike_ind; [| | exact Hn ]; clear n Hn.
  - intros m H. exists 0. change (2 ^ 0) with 1 in *. split; [ lia | rewrite gray_0; lia ].
  - intros n Hn IH m H. rewrite Z.pow_succ_r in * by exact Hn. destruct (bits_split m) as (q & b & ->). destruct (IH q) as (a & Ha & E); [ destruct b; cbn [Z.b2z] in H; lia |].
    exists (2 * a + Z.b2z (xorb b (Z.testbit a 0))). split; [ destruct (xorb b (Z.testbit a 0)); cbn [Z.b2z]; lia |]. apply Z.bits_inj'. intros i Hi. rewrite gray_bit by exact Hi. destruct (Z.eq_dec i 0) as [->|Ni].
    + rewrite !Z.testbit_0_r. change (0 + 1) with (Z.succ 0). rewrite Z.testbit_succ_r by lia. now destruct b, (Z.testbit a 0).
    + replace i with (Z.succ (i - 1)) by lia. replace (Z.succ (i - 1) + 1) with (Z.succ (i - 1 + 1)) by lia. rewrite !Z.testbit_succ_r by lia. rewrite <- E, gray_bit by lia. reflexivity.
Qed.
Lemma gray_bound n a : 0 <= n -> 0 <= a < 2 ^ n -> 0 <= gray a < 2 ^ n.
Proof.
  intros Hn H. assert (N : 0 <= gray a) by (unfold gray; apply Z.lxor_nonneg; rewrite Z.shiftr_nonneg; tauto). split; [ exact N |]. destruct (Z.eq_dec (gray a) 0) as [E|E]; [ lia |]. apply Z.log2_lt_pow2; [ lia |]. destruct (Z_lt_ge_dec (Z.log2 (gray a)) n) as [|G]; [ assumption |]. exfalso.
  assert (B : Z.testbit (gray a) (Z.log2 (gray a)) = true) by (apply Z.bit_log2; lia). rewrite gray_bit in B by lia. assert (Hb : forall i, n <= i -> Z.testbit a i = false). { intros i Hi. destruct (Z.eq_dec a 0) as [->|Na]; [ apply Z.bits_0 |]. apply Z.bits_above_log2; [ lia |]. apply Z.log2_lt_pow2; [ lia |]. apply Z.lt_le_trans with (2 ^ n); [ lia | apply Z.pow_le_mono_r; lia ]. }
  rewrite !Hb in B by lia. discriminate B.
Qed.
Lemma lxor_pred p : exists k, 0 <= k /\ Z.lxor (Zpos p) (Zpos p - 1) = Z.ones (k + 1).
Proof.
  induction p as [p IH|p IH|].
  - exists 0. split; [ lia |]. replace (Zpos p~1 - 1) with (2 * Zpos p + Z.b2z false) by (cbn [Z.b2z]; lia). replace (Zpos p~1) with (2 * Zpos p + Z.b2z true) by (cbn [Z.b2z]; lia). apply Z.bits_inj'. intros i Hi. rewrite Z.lxor_spec. destruct (Z.eq_dec i 0) as [->|Ni]; [ now rewrite !Z.testbit_0_r |]. replace i with (Z.succ (i - 1)) by lia. rewrite !Z.testbit_succ_r by lia. rewrite xorb_nilpotent, Z.ones_spec_high by lia. reflexivity.
  - destruct IH as (k & Hk & E). exists (k + 1). split; [ lia |]. replace (Zpos p~0 - 1) with (2 * (Zpos p - 1) + Z.b2z true) by (cbn [Z.b2z]; lia). replace (Zpos p~0) with (2 * Zpos p + Z.b2z false) by (cbn [Z.b2z]; lia). apply Z.bits_inj'. intros i Hi. rewrite Z.lxor_spec. destruct (Z.eq_dec i 0) as [->|Ni]; [ rewrite !Z.testbit_0_r, Z.ones_spec_low by lia; reflexivity |]. replace i with (Z.succ (i - 1)) by lia. rewrite !Z.testbit_succ_r by lia. rewrite <- Z.lxor_spec, E. destruct (Z_lt_ge_dec (i - 1) (k + 1)); [ rewrite !Z.ones_spec_low by lia | rewrite !Z.ones_spec_high by lia ]; reflexivity.
  - exists 0. split; [ lia | reflexivity ].
Qed.
Lemma gray_step a : 1 <= a -> exists k, 0 <= k /\ Z.lxor (gray a) (gray (a - 1)) = 2 ^ k.
Proof.
  intro H. destruct a as [|p|p]; try lia. destruct (lxor_pred p) as (k & Hk & E). exists k. split; [ exact Hk |]. rewrite <- gray_lxor, E. apply Z.bits_inj'. intros i Hi. rewrite gray_bit by exact Hi. destruct (Z.eq_dec i k) as [->|Ni].
  - rewrite Z.ones_spec_low, Z.ones_spec_high, Z.pow2_bits_true by lia. reflexivity.
  - rewrite Z.pow2_bits_false by lia. destruct (Z_lt_ge_dec i k); [ rewrite !Z.ones_spec_low by lia | rewrite !Z.ones_spec_high by lia ]; reflexivity.
Qed.
Lemma ctz_pow k : 0 <= k -> ctz (2 ^ k) = k.
Proof.
  intro H. pattern k. apply natlike_ind; [ reflexivity | | exact H ]. clear. intros k Hk IH. rewrite Z.pow_succ_r by exact Hk. pose proof (Z.pow_pos_nonneg 2 k ltac:(lia) Hk). destruct (2 ^ k) as [|p|p]; try lia. change (2 * Zpos p) with (Zpos p~0). cbn [ctz ctz_pos] in *. lia.
Qed.
(* one step of the walk: the code changes in one bit, and the test tells in which direction *)
Lemma step_spec a : 1 <= a -> exists k, 0 <= k /\ ctz (Z.lxor (gray a) (gray (a - 1))) = k /\
  (forall i, 0 <= i -> i <> k -> Z.testbit (gray a) i = Z.testbit (gray (a - 1)) i) /\ Z.testbit (gray a) k = negb (Z.testbit (gray (a - 1)) k) /\
  (Z.land (Z.lxor (gray a) (gray (a - 1))) (gray a) =? 0) = negb (Z.testbit (gray a) k).
Proof.
  intro H. destruct (gray_step a H) as (k & Hk & E). exists k. split; [ exact Hk |]. rewrite E. split; [ now apply ctz_pow |].
  assert (B : forall i, 0 <= i -> xorb (Z.testbit (gray a) i) (Z.testbit (gray (a - 1)) i) = (k =? i)) by (intros i Hi; rewrite <- Z.lxor_spec, E, Z.pow2_bits_eqb by exact Hk; reflexivity). split.
  - intros i Hi Ni. specialize (B i Hi). replace (k =? i) with false in B by lia. now apply xorb_eq.
  - split; [ specialize (B k Hk); rewrite Z.eqb_refl in B; now destruct (Z.testbit (gray a) k), (Z.testbit (gray (a - 1)) k) |]. destruct (Z.testbit (gray a) k) eqn:T; cbn [negb].
    + apply Z.eqb_neq. intro Z0. assert (Z.testbit (Z.land (2 ^ k) (gray a)) k = true) by (rewrite Z.land_spec, Z.pow2_bits_true, T by lia; reflexivity). rewrite Z0, Z.bits_0 in H0. discriminate.
    + apply Z.eqb_eq. apply Z.bits_inj'. intros i Hi. rewrite Z.land_spec, Z.bits_0, Z.pow2_bits_eqb by exact Hk. destruct (k =? i) eqn:Q; [| reflexivity ]. apply Z.eqb_eq in Q. subst i. now rewrite T.
Qed.
Lemma bit_bound n m k : 0 <= m < 2 ^ n -> Z.testbit m k = true -> k < n.
Proof.
  intros H T. destruct (Z_lt_ge_dec k n) as [|G]; [ assumption |]. exfalso. destruct (Z.eq_dec m 0) as [->|Nm]; [ rewrite Z.bits_0 in T; discriminate |]. rewrite Z.bits_above_log2 in T; [ discriminate | lia |]. apply Z.log2_lt_pow2; [ lia |]. destruct (Z_lt_ge_dec n 0) as [L|L]; [ rewrite Z.pow_neg_r in H by lia; lia |]. apply Z.lt_le_trans with (2 ^ n); [ lia | apply Z.pow_le_mono_r; lia ].
Qed.

Lemma zrange_snoc a n : 0 <= n -> zrange a (Z.succ n) = zrange a n ++ [a + n].
Proof. intro H. unfold zrange. rewrite Z2Nat.inj_succ by exact H. replace (S (Z.to_nat n)) with (Z.to_nat n + 1)%nat by lia. rewrite zseq_app, (zseq_S _ 0), Z2Nat.id by exact H. reflexivity. Qed.
Definition choice {A} (m : Z) (f c : Z -> A) (k : Z) : A := if Z.testbit m k then f k else c k.
Lemma energy_table_spec n cost cur fus old m : 0 <= n -> 0 <= m < 2 ^ n -> energy_table n cost cur fus old m = cost (map (choice m fus cur) (zrange 0 n)).
Proof.
  intros Hn Hm. unfold energy_table. set (init := (cur, 0, _)).
  assert (G : forall A, 0 <= A <= 2 ^ n - 1 -> let st := fold_left (table_step n cost cur fus) (zrange 1 A) init in
     (forall k, 0 <= k -> fst (fst st) k = choice (gray A) fus cur k) /\ snd (fst st) = gray A /\ forall b, 0 <= b <= A -> snd st (gray b) = cost (map (choice (gray b) fus cur) (zrange 0 n))).
  { intros A HA. pattern A. apply natlike_ind; [| | lia ]; [| clear A HA; intros A HA IH ].
    - unfold init. cbn [zrange zseq fold_left Z.to_nat seq map fst snd]. rewrite gray_0. split; [ intros k Hk; unfold choice; now rewrite Z.bits_0 |]. split; [ reflexivity |]. intros b Hb. replace b with 0 by lia. rewrite gray_0. rewrite upd_same. f_equal. apply map_ext. intro k. unfold choice. now rewrite Z.bits_0.
    - rewrite zrange_snoc by exact HA. replace (1 + A) with (A + 1) by lia. rewrite fold_left_app. cbn [fold_left]. destruct (fold_left (table_step n cost cur fus) (zrange 1 A) init) as [[buf last] table]. cbn [fst snd] in IH. destruct IH as (I1 & -> & I3). unfold table_step. destruct (step_spec (A + 1) ltac:(lia)) as (k & Hk & Ek & Eo & Ec & Et). replace (A + 1 - 1) with A in * by lia. rewrite Ek, Et.
      unfold Z.succ. set (buf' := if negb _ then _ else _). assert (B : forall i, 0 <= i -> buf' i = choice (gray (A + 1)) fus cur i).
      { intros i Hi. unfold buf', choice. destruct (Z.eq_dec i k) as [->|Ni].
        - destruct (Z.testbit (gray (A + 1)) k); cbn [negb]; now rewrite upd_same.
        - rewrite (Eo i) by assumption. destruct (negb (Z.testbit (gray (A + 1)) k)); rewrite upd_other by exact Ni; now apply I1. }
      cbn [fst snd]. split; [ exact B |]. split; [ reflexivity |]. intros b Hb. destruct (Z.eq_dec b (A + 1)) as [->|Nb].
      + rewrite upd_same. f_equal. apply map_ext_in. intros i I. apply in_zrange in I. apply B. lia.
      + rewrite upd_other; [ apply I3; lia |]. intro E. apply gray_inj in E; lia. }
  destruct (gray_surj n m Hn Hm) as (a & Ha & <-). specialize (G (2 ^ n - 1) ltac:(lia)). cbv zeta in G. destruct G as (_ & _ & G). apply G. lia.
Qed.
Lemma fold_sum {A} (f : A -> Z) l e : fold_left (fun s i => s + f i) l e = e + total (map f l).
Proof. revert e. induction l as [|a l IH]; intro e; cbn [fold_left map]; [ cbn; lia |]. rewrite IH, total_cons. lia. Qed.
Lemma total_ext {A} (f g : A -> Z) l : (forall x, In x l -> f x = g x) -> total (map f l) = total (map g l).
Proof. intro H. f_equal. now apply map_ext_in. Qed.
Lemma total_add {A} (f g : A -> Z) l : total (map (fun x => f x + g x) l) = total (map f l) + total (map g l).
Proof. induction l as [|a l IH]; [ reflexivity |]. cbn [map]. rewrite !total_cons, IH. lia. Qed.
Lemma total_zero {A} (l : list A) : total (map (fun _ => 0) l) = 0.
Proof. induction l as [|a l IH]; [ reflexivity |]. cbn [map]. now rewrite total_cons, IH. Qed.
Lemma total_pick_in (g : Z -> Z) t l : NoDup l -> total (map (fun c => if c =? t then g c else 0) l) = if existsb (Z.eqb t) l then g t else 0.
Proof.
  intro N. destruct (existsb (Z.eqb t) l) eqn:E.
  - apply existsb_exists in E. destruct E as (u & I & E). apply Z.eqb_eq in E. subst u. rewrite <- (total_pick g t l N I). apply total_ext. intros c _. rewrite (Z.eqb_sym c t). destruct (t =? c) eqn:Q; [| reflexivity ]. reflexivity.
  - transitivity (total (map (fun _ : Z => 0) l)); [| apply total_zero ]. apply total_ext. intros c I. destruct (c =? t) eqn:Q; [| reflexivity ]. apply Z.eqb_eq in Q. subst c. exfalso. assert (existsb (Z.eqb t) l = true) by (apply existsb_exists; exists t; split; [ exact I | apply Z.eqb_refl ]). congruence.
Qed.
Lemma subtract_linear_spec n table psi1 psi2 m : 0 <= n -> 0 <= m < 2 ^ n -> subtract_linear n table psi1 psi2 m = table m - total (map (choice m psi1 psi2) (zrange 0 n)).
Proof.
  intros Hn Hm. unfold subtract_linear. rewrite fold_sum, Z.add_0_l. set (S0 := total _). set (init := (S0, 0, _)).
  assert (C0 : total (map (choice 0 psi1 psi2) (zrange 0 n)) = S0) by (unfold S0; apply total_ext; intros k _; unfold choice; now rewrite Z.bits_0).
  assert (G : forall A, 0 <= A <= 2 ^ n - 1 -> let st := fold_left (linear_step psi1 psi2) (zrange 1 A) init in
     fst (fst st) = total (map (choice (gray A) psi1 psi2) (zrange 0 n)) /\ snd (fst st) = gray A /\
     (forall b, 0 <= b <= A -> snd st (gray b) = table (gray b) - total (map (choice (gray b) psi1 psi2) (zrange 0 n))) /\ (forall b, A < b -> snd st (gray b) = table (gray b))).
  { intros A HA. assert (L : 0 <= A) by lia. revert HA. pattern A. apply natlike_ind; [| | lia ]; [ intros _ | clear A L; intros A HA IH HB; specialize (IH ltac:(lia)) ].
    - unfold init. cbn [zrange zseq fold_left Z.to_nat seq map fst snd]. rewrite gray_0. split; [ now rewrite C0 |]. split; [ reflexivity |]. split.
      + intros b Hb. replace b with 0 by lia. rewrite gray_0, upd_same, C0. reflexivity.
      + intros b Hb. rewrite upd_other; [ reflexivity |]. rewrite <- gray_0. intro E. apply gray_inj in E; lia.
    - rewrite zrange_snoc by exact HA. replace (1 + A) with (A + 1) by lia. rewrite fold_left_app. cbn [fold_left]. destruct (fold_left (linear_step psi1 psi2) (zrange 1 A) init) as [[sum last] tb]. cbn [fst snd] in IH. destruct IH as (-> & -> & I3 & I4). unfold linear_step. destruct (step_spec (A + 1) ltac:(lia)) as (k & Hk & Ek & Eo & Ec & Et). replace (A + 1 - 1) with A in * by lia. rewrite (Z.land_comm (gray (A + 1))), Ek, Et.
      unfold Z.succ. set (sum' := if negb _ then _ else _).
      assert (Kn : k < n). { destruct (Z.testbit (gray (A + 1)) k) eqn:T; [ apply (bit_bound n (gray (A + 1)) k); [ apply gray_bound; lia | exact T ] |]. apply (bit_bound n (gray A) k); [ apply gray_bound; lia |]. rewrite <- (negb_involutive (Z.testbit (gray A) k)), <- Ec. reflexivity. }
      assert (B : sum' = total (map (choice (gray (A + 1)) psi1 psi2) (zrange 0 n))).
      { assert (D : total (map (choice (gray (A + 1)) psi1 psi2) (zrange 0 n)) = total (map (choice (gray A) psi1 psi2) (zrange 0 n)) + (choice (gray (A + 1)) psi1 psi2 k - choice (gray A) psi1 psi2 k)).
        { rewrite <- (total_pick (fun i => choice (gray (A + 1)) psi1 psi2 i - choice (gray A) psi1 psi2 i) k (zrange 0 n) (nodup_zseq _ _)) by (apply in_zrange; lia). rewrite <- total_add. apply total_ext. intros i I. apply in_zrange in I. destruct (k =? i) eqn:Q; [ lia |]. unfold choice. rewrite (Eo i) by lia. lia. }
        rewrite D. unfold sum', choice. rewrite Ec, negb_involutive. destruct (Z.testbit (gray A) k); cbn [negb]; lia. }
      cbn [fst snd]. split; [ exact B |]. split; [ reflexivity |]. split.
      + intros b Hb. destruct (Z.eq_dec b (A + 1)) as [->|Nb].
        * rewrite upd_same, I4, B by lia. reflexivity.
        * rewrite upd_other; [ apply I3; lia |]. intro E. apply gray_inj in E; lia.
      + intros b Hb. rewrite upd_other; [ apply I4; lia |]. intro E. apply gray_inj in E; lia. }
  destruct (gray_surj n m Hn Hm) as (a & Ha & <-). specialize (G (2 ^ n - 1) ltac:(lia)). cbv zeta in G. destruct G as (_ & _ & G & _). apply G. lia.
Qed.
