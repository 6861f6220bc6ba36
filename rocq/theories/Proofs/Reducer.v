From Coq Require Import ZArith NArith List Bool Lia FinFun.
From Verif Require Import Model.Reducer Spec.Reducer.
Import ListNotations.
Open Scope Z_scope.

Definition sumf (l : list N) (f : N -> Z) : Z := fold_right Z.add 0 (map f l).
Lemma sumf_app a b f : sumf (a ++ b) f = sumf a f + sumf b f.
Proof. unfold sumf. induction a; cbn [map app fold_right]; lia. Qed.
Lemma sumf_ext l f g : (forall x, In x l -> f x = g x) -> sumf l f = sumf l g.
Proof. unfold sumf. induction l as [|a l IH]; intro H; auto. cbn [map fold_right]. rewrite (H a), IH; auto; intros; [ apply H; now right | now left ]. Qed.
Lemma sumf_add l f g : sumf l (fun x => f x + g x) = sumf l f + sumf l g.
Proof. unfold sumf. induction l; cbn [map fold_right]; lia. Qed.
Lemma sumf_zero l : sumf l (fun _ => 0) = 0.
Proof. unfold sumf. induction l; cbn [map fold_right]; lia. Qed.
Lemma sumf_cond l (b : bool) f : sumf l (fun x => if b then f x else 0) = if b then sumf l f else 0.
Proof. destruct b; [ reflexivity | apply sumf_zero ]. Qed.

Lemma range_double m f : sumf (nrange 0 (2 * m)) f = sumf (nrange 0 m) (fun k => f (2 * k)%N + f (2 * k + 1)%N).
Proof.
  induction m as [|m IH]; auto. replace (2 * S m)%nat with (S (S (2 * m))) by lia. unfold nrange in *.
  rewrite (seq_S (S (2 * m))), (seq_S (2 * m)), (seq_S m), !map_app, !sumf_app, IH. unfold sumf. cbn [map fold_right plus].
  replace (N.of_nat (2 * m)) with (2 * N.of_nat m)%N by lia. replace (N.of_nat (S (2 * m))) with (2 * N.of_nat m + 1)%N by lia. lia.
Qed.
Lemma range_pow n f : sumf (nrange 0 (2 ^ S n)) f = sumf (nrange 0 (2 ^ n)) (fun k => f (2 * k)%N) + sumf (nrange 0 (2 ^ n)) (fun k => f (2 * k + 1)%N).
Proof. replace (2 ^ S n)%nat with (2 * 2 ^ n)%nat by (cbn [Nat.pow]; lia). rewrite range_double, sumf_add. reflexivity. Qed.
Lemma range_head m f : (0 < m)%nat -> sumf (nrange 0 m) f = f 0%N + sumf (nrange 1 (m - 1)) f.
Proof. intro H. destruct m as [|m]; [ lia |]. unfold nrange, sumf. cbn [seq map fold_right N.of_nat]. replace (S m - 1)%nat with m by lia. reflexivity. Qed.

Definition sub (a s : N) : bool := N.eqb (N.ldiff a s) 0.
Lemma ldiff_dbl a s (i j : bool) : N.ldiff (2 * a + N.b2n i) (2 * s + N.b2n j) = (2 * N.ldiff a s + N.b2n (i && negb j))%N.
Proof.
  apply N.bits_inj. intro k. rewrite N.ldiff_spec. destruct (N.eq_0_gt_0_cases k) as [->|K].
  - rewrite !N.testbit_0_r. reflexivity.
  - replace k with (N.succ (N.pred k)) by lia. rewrite !N.testbit_succ_r, N.ldiff_spec. reflexivity.
Qed.
Lemma lxor_dbl a s (i j : bool) : N.lxor (2 * a + N.b2n i) (2 * s + N.b2n j) = (2 * N.lxor a s + N.b2n (xorb i j))%N.
Proof.
  apply N.bits_inj. intro k. rewrite N.lxor_spec. destruct (N.eq_0_gt_0_cases k) as [->|K].
  - rewrite !N.testbit_0_r. reflexivity.
  - replace k with (N.succ (N.pred k)) by lia. rewrite !N.testbit_succ_r, N.lxor_spec. reflexivity.
Qed.
Lemma sub_dbl a s i j : sub (2 * a + N.b2n i) (2 * s + N.b2n j) = implb i j && sub a s.
Proof.
  unfold sub. rewrite ldiff_dbl. destruct (N.eqb_spec (N.ldiff a s) 0) as [->|N0].
  - destruct i, j; reflexivity.
  - rewrite andb_false_r. apply N.eqb_neq. destruct i, j; cbn [N.b2n andb negb]; lia.
Qed.
Lemma parity_from n : forall a k p, fold_left (fun q i => xorb q (N.testbit a (N.of_nat i))) (seq k n) p =
  xorb p (fold_left (fun q i => xorb q (N.testbit a (N.of_nat i))) (seq k n) false).
Proof.
  induction n as [|n IH]; intros a k p; cbn [seq fold_left]; [ now destruct p |].
  rewrite IH. symmetry. rewrite IH. destruct p, (N.testbit a (N.of_nat k)), (fold_left _ _ false); reflexivity.
Qed.
Lemma parity_shift n a i k : fold_left (fun q j => xorb q (N.testbit (2 * a + N.b2n i) (N.of_nat j))) (seq (S k) n) false =
  fold_left (fun q j => xorb q (N.testbit a (N.of_nat j))) (seq k n) false.
Proof.
  revert k. induction n as [|n IH]; intro k; auto. cbn [seq fold_left]. rewrite parity_from, IH. symmetry. rewrite parity_from.
  rewrite Nat2N.inj_succ, N.testbit_succ_r. reflexivity.
Qed.
Lemma parity_dbl n a s i j : parity (S n) (2 * a + N.b2n i) (2 * s + N.b2n j) = xorb (xorb i j) (parity n a s).
Proof.
  unfold parity. rewrite lxor_dbl. cbn [seq fold_left]. rewrite parity_from, parity_shift. f_equal.
  change (N.of_nat 0) with 0%N. rewrite N.testbit_0_r. now destruct i, j.
Qed.
Definition sg (b : bool) (v : Z) : Z := if b then - v else v.
Definition mu (n : nat) (E : N -> Z) (s : N) : Z := sumf (nrange 0 (2 ^ n)) (fun a => if sub a s then sg (parity n a s) (E a) else 0).
Definition zeta (n : nat) (c : N -> Z) (x : N) : Z := sumf (nrange 0 (2 ^ n)) (fun s => if sub s x then c s else 0).

Lemma dbl0 k : (2 * k)%N = (2 * k + N.b2n false)%N. Proof. cbn. lia. Qed.
Lemma dbl1 k : (2 * k + 1)%N = (2 * k + N.b2n true)%N. Proof. reflexivity. Qed.
Lemma mu_dbl0 n E s : mu (S n) E (2 * s) = mu n (fun a => E (2 * a)%N) s.
Proof.
  unfold mu. rewrite range_pow. rewrite <- Z.add_0_r. f_equal.
  - apply sumf_ext. intros a _. rewrite (dbl0 a), (dbl0 s), sub_dbl, parity_dbl. cbn [implb andb xorb]. rewrite <- dbl0. destruct (sub a s), (parity n a s); reflexivity.
  - transitivity (sumf (nrange 0 (2 ^ n)) (fun _ => 0)); [| apply sumf_zero ]. apply sumf_ext. intros a _. rewrite (dbl1 a), (dbl0 s), sub_dbl. reflexivity.
Qed.
Lemma sumf_opp l f : sumf l (fun x => - f x) = - sumf l f.
Proof. unfold sumf. induction l; cbn [map fold_right]; lia. Qed.
Lemma mu_dbl1 n E s : mu (S n) E (2 * s + 1) = mu n (fun a => E (2 * a + 1)%N) s - mu n (fun a => E (2 * a)%N) s.
Proof.
  unfold mu. rewrite range_pow. rewrite Z.add_comm. unfold Z.sub. f_equal.
  - apply sumf_ext. intros a _. rewrite (dbl1 a), (dbl1 s), sub_dbl, parity_dbl. cbn [implb andb xorb]. destruct (sub a s), (parity n a s); reflexivity.
  - rewrite <- sumf_opp. apply sumf_ext. intros a _. rewrite (dbl0 a), (dbl1 s), sub_dbl, parity_dbl. cbn [implb andb xorb]. rewrite <- dbl0.
    destruct (sub a s); [| reflexivity ]. destruct (parity n a s); cbn [negb sg]; lia.
Qed.
(** Moebius inversion over subsets *)
Lemma inversion_ n : forall E x, (x < 2 ^ N.of_nat n)%N -> zeta n (mu n E) x = E x.
Proof.
  induction n as [|n IH]; intros E x H.
  - change (2 ^ N.of_nat 0)%N with 1%N in H. assert (x = 0%N) by lia. subst x. vm_compute (2 ^ 0)%nat. unfold zeta, mu, sumf, nrange. cbn.
    destruct (E 0%N); reflexivity.
  - rewrite Nat2N.inj_succ, N.pow_succ_r' in H. unfold zeta. rewrite range_pow.
    pose proof (N.div2_odd x) as D. set (h := N.div2 x) in *. 
    assert (Hh : (h < 2 ^ N.of_nat n)%N) by (destruct (N.odd x); cbn [N.b2n] in D; lia).
    rewrite D. destruct (N.odd x) eqn:O.
    + rewrite (sumf_ext _ _ (fun s => if sub s h then mu n (fun a => E (2 * a)%N) s else 0)).
      2:{ intros s _. rewrite mu_dbl0, (dbl0 s), sub_dbl. reflexivity. }
      rewrite (sumf_ext _ (fun s => if sub (2 * s + 1) _ then _ else 0) (fun s => (if sub s h then mu n (fun a => E (2 * a + 1)%N) s else 0) + - (if sub s h then mu n (fun a => E (2 * a)%N) s else 0))).
      2:{ intros s _. rewrite mu_dbl1, (dbl1 s), sub_dbl. cbn [implb andb]. destruct (sub s h); lia. }
      rewrite sumf_add, sumf_opp.
      pose proof (IH (fun a => E (2 * a + 1)%N) h Hh) as I1. unfold zeta in I1. rewrite I1. cbn [N.b2n]. lia.
    + rewrite (sumf_ext _ _ (fun s => if sub s h then mu n (fun a => E (2 * a)%N) s else 0)).
      2:{ intros s _. rewrite mu_dbl0, (dbl0 s), sub_dbl. reflexivity. }
      rewrite (sumf_ext _ (fun s => if sub (2 * s + 1) _ then _ else 0) (fun s => 0)).
      2:{ intros s _. rewrite (dbl1 s), sub_dbl. reflexivity. }
      rewrite sumf_zero. pose proof (IH (fun a => E (2 * a)%N) h Hh) as I1. unfold zeta in I1. rewrite I1. cbn [N.b2n]. rewrite Z.add_0_r. f_equal. lia.
Qed.

(** the nested loops compute mu *)
Lemma inner_loop n a e l : NoDup l -> forall c s, fold_left (add_one n a e) l c s = c s + (if existsb (N.eqb s) l && sub a s then sg (parity n a s) e else 0).
Proof.
  induction 1 as [|k l NI ND IH]; intros c s; cbn [fold_left existsb]; [ cbn; lia |].
  rewrite IH. unfold add_one at 1. change (N.eqb (N.ldiff a k) 0) with (sub a k).
  destruct (N.eqb_spec s k) as [->|NE]; cbn [orb].
  - assert (X : existsb (N.eqb k) l = false). { destruct (existsb (N.eqb k) l) eqn:X; auto. apply existsb_exists in X. destruct X as (y & I & Q). apply N.eqb_eq in Q. subst y. contradiction. }
    rewrite X. cbn [andb]. destruct (sub a k); [| lia ]. unfold upd. rewrite N.eqb_refl. unfold sg. lia.
  - destruct (sub a k); [| reflexivity ]. unfold upd. rewrite (proj2 (N.eqb_neq s k)) by assumption. reflexivity.
Qed.
Lemma nodup_nrange a m : NoDup (nrange a m).
Proof. unfold nrange. apply FinFun.Injective_map_NoDup; [ intros x y; lia | apply seq_NoDup ]. Qed.
Lemma in_nrange x a m : In x (nrange a m) <-> (N.of_nat a <= x < N.of_nat (a + m))%N.
Proof.
  unfold nrange. rewrite in_map_iff. split.
  - intros (i & <- & I). apply in_seq in I. lia.
  - intro H. exists (N.to_nat x). split; [ lia |]. apply in_seq. lia.
Qed.
Lemma coefficients_mu {L} n (E : list L -> Z) alpha cur s : In s (nrange 1 (2 ^ n - 1)) ->
  coefficients n E alpha cur s = mu n (fun a => E (labels n alpha cur a)) s.
Proof.
  intro I. unfold coefficients, mu.
  assert (X : existsb (N.eqb s) (nrange 1 (2 ^ n - 1)) = true) by (apply existsb_exists; exists s; split; [ assumption | apply N.eqb_refl ]).
  assert (G : forall l c, fold_left (fun c a => fold_left (add_one n a (E (labels n alpha cur a))) (nrange 1 (2 ^ n - 1)) c) l c s =
     c s + sumf l (fun a => if sub a s then sg (parity n a s) (E (labels n alpha cur a)) else 0)).
  { induction l as [|a l IH]; intro c; cbn [fold_left]; [ cbn; lia |]. rewrite IH. rewrite inner_loop by apply nodup_nrange. rewrite X. cbn [andb].
    unfold sumf. cbn [map fold_right]. lia. }
  rewrite G. lia.
Qed.

(** the assignment index of a variable setting *)
Fixpoint index (n : nat) (y : nat -> bool) : N := match n with O => 0%N | S k => (2 * index k (fun i => y (S i)) + N.b2n (y O))%N end.
Lemma index_bound n y : (index n y < 2 ^ N.of_nat n)%N.
Proof. revert y. induction n as [|n IH]; intro y; [ cbn; lia |]. cbn [index]. rewrite Nat2N.inj_succ, N.pow_succ_r'. specialize (IH (fun i => y (S i))). destruct (y O); cbn [N.b2n]; lia. Qed.
Lemma index_bit n y i : (i < n)%nat -> N.testbit (index n y) (N.of_nat i) = y i.
Proof.
  revert y i. induction n as [|n IH]; intros y i H; [ lia |]. cbn [index]. destruct i as [|i].
  - change (N.of_nat 0) with 0%N. now rewrite N.testbit_0_r.
  - rewrite Nat2N.inj_succ, N.testbit_succ_r. apply (IH (fun i => y (S i))). lia.
Qed.
Lemma sub_bits n s x : (s < 2 ^ N.of_nat n)%N -> sub s x = forallb (fun i => implb (N.testbit s (N.of_nat i)) (N.testbit x (N.of_nat i))) (seq 0 n).
Proof.
  intro B. apply eq_true_iff_eq. unfold sub. rewrite N.eqb_eq, forallb_forall. split.
  - intros Z0 i _. destruct (N.testbit s (N.of_nat i)) eqn:S; [| reflexivity ]. cbn [implb].
    assert (T : N.testbit (N.ldiff s x) (N.of_nat i) = false) by (rewrite Z0; apply N.bits_0). rewrite N.ldiff_spec, S in T. destruct (N.testbit x (N.of_nat i)); auto.
  - intro H. apply N.bits_inj. intro k. rewrite N.bits_0, N.ldiff_spec. destruct (N.testbit s k) eqn:S; [| reflexivity ].
    assert (K : (k < N.of_nat n)%N).
    { destruct (N.lt_ge_cases k (N.of_nat n)) as [|G]; auto. exfalso. destruct (N.eq_0_gt_0_cases s) as [->|P]; [ rewrite N.bits_0 in S; discriminate |].
      rewrite N.bits_above_log2 in S; [ discriminate |]. apply N.log2_lt_pow2; auto. eapply N.lt_le_trans; [ exact B |]. apply N.pow_le_mono_r; lia. }
    specialize (H (N.to_nat k)). rewrite N2Nat.id, S in H. cbn [implb] in H. rewrite H by (apply in_seq; lia). reflexivity.
Qed.
Lemma reducer_exact {L} n (E : list L -> Z) alpha cur node x :
  poly_value x (factorReducer n E alpha cur node) =
  E (map (fun i => if x (node i) then alpha else cur i) (seq 0 n)) - E (map cur (seq 0 n)).
Proof.
  set (A := index n (fun i => x (node i))). set (e := fun a => E (labels n alpha cur a)).
  pose proof (inversion_ n e A (index_bound n _)) as I. unfold zeta in I.
  rewrite range_head in I by (apply Nat.neq_0_lt_0, Nat.pow_nonzero; lia).
  assert (M0 : mu n e 0 = e 0%N).
  { pose proof (inversion_ n e 0%N) as I0. assert (P : (0 < 2 ^ N.of_nat n)%N) by (apply N.neq_0_lt_0, N.pow_nonzero; lia).
    specialize (I0 P). unfold zeta in I0. rewrite range_head in I0 by (apply Nat.neq_0_lt_0, Nat.pow_nonzero; lia).
    rewrite (sumf_ext _ _ (fun _ => 0)) in I0. { rewrite sumf_zero in I0. cbn [sub N.ldiff N.eqb] in I0. unfold sub in I0. cbn in I0. lia. }
    intros s Hs. apply in_nrange in Hs. unfold sub. rewrite N.ldiff_0_r. rewrite (proj2 (N.eqb_neq s 0)) by lia. reflexivity. }
  assert (S0 : sub 0 A = true) by reflexivity. rewrite S0, M0 in I.
  assert (EA : e A = E (map (fun i => if x (node i) then alpha else cur i) (seq 0 n))).
  { unfold e, labels. f_equal. apply map_ext_in. intros i Hi. apply in_seq in Hi. unfold A. now rewrite index_bit by lia. }
  assert (E0 : e 0%N = E (map cur (seq 0 n))).
  { reflexivity. }
  rewrite <- EA, <- E0. 
  assert (PV : poly_value x (factorReducer n E alpha cur node) = sumf (nrange 1 (2 ^ n - 1)) (fun s => if sub s A then mu n e s else 0)).
  { unfold poly_value, factorReducer. rewrite map_map. apply sumf_ext. intros s Hs. unfold term_value. cbn [fst snd].
    rewrite (coefficients_mu n E alpha cur s Hs). fold e.
    assert (SB : (s < 2 ^ N.of_nat n)%N).
    { apply in_nrange in Hs. assert (PW : N.of_nat (2 ^ n) = (2 ^ N.of_nat n)%N). { clear. induction n as [|n IH]; auto. rewrite Nat2N.inj_succ, N.pow_succ_r', <- IH. cbn [Nat.pow]. lia. }
      rewrite <- PW. lia. }
    rewrite (sub_bits n s A SB). replace (forallb x (members n node s)) with (forallb (fun i => implb (N.testbit s (N.of_nat i)) (N.testbit A (N.of_nat i))) (seq 0 n)); auto.
    unfold members. apply eq_true_iff_eq. rewrite !forallb_forall. split.
    - intros H v Hv. apply in_map_iff in Hv. destruct Hv as (i & <- & Hi). apply filter_In in Hi. destruct Hi as [Hi T]. specialize (H i Hi). rewrite T in H. cbn [implb] in H.
      apply in_seq in Hi. unfold A in H. rewrite index_bit in H by lia. exact H.
    - intros H i Hi. destruct (N.testbit s (N.of_nat i)) eqn:T; [| reflexivity ]. cbn [implb]. pose proof Hi as Hi'. apply in_seq in Hi. unfold A. rewrite index_bit by lia.
      apply H. apply in_map. apply filter_In. split; auto. }
  rewrite PV. lia.
Qed.
