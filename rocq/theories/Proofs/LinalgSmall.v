From Coq Require Import List Arith QArith Qcanon ZArith Bool Lia Field.
From Verif Require Import Lib.Loop Model.Linalg Spec.Linalg Proofs.Linalg Proofs.Determinant.
Import ListNotations.
Open Scope Qc_scope.

Lemma det1_laplace : forall p m, det1 p m = laplace 1 (matrix_at 1 p m).
Proof. intros. unfold det1. cbn [laplace qsum Nat.even]. unfold matrix_at. simpl Z.of_nat. rewrite Z.add_0_r. ring. Qed.

Lemma det2_laplace : forall p m, det2 p m = laplace 2 (matrix_at 2 p m).
Proof.
  intros. unfold det2. cbn [laplace qsum Nat.even]. unfold minor, matrix_at.
  cbn [Nat.ltb Nat.leb Nat.mul Nat.add]. simpl Z.of_nat. ring.
Qed.
Lemma det3_laplace : forall p m, det3 p m = laplace 3 (matrix_at 3 p m).
Proof.
  intros. unfold det3. cbn [laplace qsum Nat.even]. unfold minor, matrix_at.
  cbn [Nat.ltb Nat.leb Nat.mul Nat.add]. simpl Z.of_nat. ring.
Qed.

Lemma wr_same : forall m a v, wr m a v a = v.
Proof. intros. unfold wr. rewrite Z.eqb_refl. reflexivity. Qed.
Lemma wr_other : forall m a v b, b <> a -> wr m a v b = m b.
Proof. intros. unfold wr. destruct (Z.eqb_spec b a); [congruence|reflexivity]. Qed.

Lemma invert1_ok : forall pin pout m m', invert1 pin pout m = Some m' -> disjoint 1 pin pout ->
  two_sided_inverse 1 (matrix_at 1 pin m) (matrix_at 1 pout m').
Proof.
  intros pin pout m m' H Hd. unfold invert1 in H. destruct (Qc_eq_dec (m pin) 0) as [|Hz]; [discriminate|].
  injection H as <-. intros i j Hi Hj. assert (i = 0%nat) by lia. assert (j = 0%nat) by lia. subst.
  unfold matmul, matrix_at, delta. cbn [qsum]. simpl Z.of_nat. rewrite !Z.add_0_r, wr_same. simpl. split; field; exact Hz.
Qed.

Ltac rdw := repeat first [rewrite wr_same | rewrite wr_other by lia].

Lemma invert2_mem : forall pin pout m m', invert2 pin pout m = Some m' -> disjoint 2 pin pout ->
  det2 pin m <> 0 /\
  m' (pout + 0)%Z = m (pin + 3)%Z * / det2 pin m /\ m' (pout + 1)%Z = m (pin + 1)%Z * - / det2 pin m /\
  m' (pout + 2)%Z = m (pin + 2)%Z * - / det2 pin m /\ m' (pout + 3)%Z = m (pin + 0)%Z * / det2 pin m /\
  (forall a, (a < pout \/ pout + 4 <= a)%Z -> m' a = m a).
Proof.
  intros pin pout m m' H Hd. unfold disjoint in Hd. simpl Z.of_nat in Hd. unfold invert2 in H. cbv zeta in H.
  destruct (Qc_eq_dec (det2 pin m) 0) as [|Hz]; [discriminate|]. injection H as <-. set (di := / det2 pin m).
  split; [exact Hz|]. repeat split; try (rdw; reflexivity). intros a Ha. rdw. reflexivity.
Qed.

Lemma invert2_ok : forall pin pout m m', invert2 pin pout m = Some m' -> disjoint 2 pin pout ->
  two_sided_inverse 2 (matrix_at 2 pin m) (matrix_at 2 pout m').
Proof.
  intros pin pout m m' H Hd. destruct (invert2_mem pin pout m m' H Hd) as (Hz & H0 & H1 & H2 & H3 & _).
  unfold det2 in *.
  intros i j Hi Hj. unfold matmul, matrix_at, delta.
  assert (Hi' : i = 0%nat \/ i = 1%nat) by lia. assert (Hj' : j = 0%nat \/ j = 1%nat) by lia.
  destruct Hi' as [-> | ->], Hj' as [-> | ->]; cbn [qsum Nat.mul Nat.add Nat.eqb]; simpl Z.of_nat; rewrite ?H0, ?H1, ?H2, ?H3;
    split; field; exact Hz.
Qed.

Definition idx_ok (e : Z * (Z * Z * Z * Z)) : Prop :=
  let '(k, (a, b, c, d)) := e in (0 <= k < 9 /\ 0 <= a < 9 /\ 0 <= b < 9 /\ 0 <= c < 9 /\ 0 <= d < 9)%Z.
(** with disjoint buffers the stores can use the original input *)
Lemma stores_frozen : forall pin pout di m0 l m, (forall x, (0 <= x < 9)%Z -> m (pin + x)%Z = m0 (pin + x)%Z) ->
  (pin + 9 <= pout \/ pout + 9 <= pin)%Z -> Forall idx_ok l ->
  fold_left (store3 pin pout di) l m =
  fold_left (fun m '(k, (a, b, c, d)) => wr m (pout + k)%Z (cof m0 pin a b c d * di)) l m.
Proof.
  intros pin pout di m0. induction l as [|[k [[[a b] c] d]] l IH]; intros m Hm Hd Hl; [reflexivity|].
  inversion Hl as [|x0 l0 Hx0 Hl']; subst. destruct Hx0 as (Hk & Ha & Hb & Hc & Hdd). cbn [fold_left store3].
  assert (E : cof m pin a b c d = cof m0 pin a b c d) by (unfold cof; rewrite !Hm by assumption; reflexivity).
  rewrite E. apply IH; [|exact Hd|exact Hl']. intros x Hx. rewrite wr_other by lia. apply Hm. exact Hx.
Qed.

Lemma invert3_mem : forall pin pout m m', invert3 pin pout m = Some m' -> disjoint 3 pin pout ->
  let di := / det3 pin m in
  det3 pin m <> 0 /\
  m' (pout + 0)%Z = cof m pin 4 8 5 7 * di /\ m' (pout + 1)%Z = cof m pin 2 7 1 8 * di /\
  m' (pout + 2)%Z = cof m pin 1 5 2 4 * di /\ m' (pout + 3)%Z = cof m pin 5 6 3 8 * di /\
  m' (pout + 4)%Z = cof m pin 0 8 2 6 * di /\ m' (pout + 5)%Z = cof m pin 2 3 0 5 * di /\
  m' (pout + 6)%Z = cof m pin 3 7 4 6 * di /\ m' (pout + 7)%Z = cof m pin 1 6 0 7 * di /\
  m' (pout + 8)%Z = cof m pin 0 4 1 3 * di /\
  (forall a, (a < pout \/ pout + 9 <= a)%Z -> m' a = m a).
Proof.
  intros pin pout m m' H Hd. unfold disjoint in Hd. simpl Z.of_nat in Hd. unfold invert3 in H. cbv zeta in *.
  destruct (Qc_eq_dec (det3 pin m) 0) as [|Hz]; [discriminate|].
  assert (Em : m' = fold_left (store3 pin pout (/ det3 pin m)) invert3_stores m) by congruence. clear H. revert Em.
  generalize (/ det3 pin m). intros di ->.
  split; [exact Hz|]. rewrite (stores_frozen pin pout di m invert3_stores m); [|reflexivity|exact Hd|repeat constructor; simpl; lia].
  unfold invert3_stores. cbn [fold_left].
  generalize (cof m pin 4 8 5 7) (cof m pin 2 7 1 8) (cof m pin 1 5 2 4) (cof m pin 5 6 3 8) (cof m pin 0 8 2 6) (cof m pin 2 3 0 5)
    (cof m pin 3 7 4 6) (cof m pin 1 6 0 7) (cof m pin 0 4 1 3). intros c0 c1 c2 c3 c4 c5 c6 c7 c8.
  repeat split; try (rdw; reflexivity). intros a Ha. rdw. reflexivity.
Qed.

Lemma invert3_ok : forall pin pout m m', invert3 pin pout m = Some m' -> disjoint 3 pin pout ->
  two_sided_inverse 3 (matrix_at 3 pin m) (matrix_at 3 pout m').
Proof.
  intros pin pout m m' H Hd. destruct (invert3_mem pin pout m m' H Hd) as (Hz & H0 & H1 & H2 & H3 & H4 & H5 & H6 & H7 & H8 & _).
  assert (Hdi : det3 pin m * / det3 pin m = 1) by (apply Qcmult_inv_r; exact Hz). revert Hdi H0 H1 H2 H3 H4 H5 H6 H7 H8.
  generalize (/ det3 pin m). intros di Hdi. unfold det3, cof in *. cbv zeta in *. clear H Hz Hd.
  intros H0 H1 H2 H3 H4 H5 H6 H7 H8.
  intros i j Hi Hj. unfold matmul, matrix_at, delta.
  assert (Hi' : i = 0%nat \/ i = 1%nat \/ i = 2%nat) by lia. assert (Hj' : j = 0%nat \/ j = 1%nat \/ j = 2%nat) by lia.
  destruct Hi' as [-> | [-> | ->]], Hj' as [-> | [-> | ->]]; cbn [qsum Nat.mul Nat.add Nat.eqb]; simpl Z.of_nat; rewrite ?H0, ?H1, ?H2, ?H3, ?H4, ?H5, ?H6, ?H7, ?H8;
    split; first [ring | rewrite <- Hdi; ring].
Qed.

Lemma invert2_none : forall pin pout m, invert2 pin pout m = None <-> laplace 2 (matrix_at 2 pin m) = 0.
Proof. intros. rewrite <- det2_laplace. unfold invert2. destruct (Qc_eq_dec (det2 pin m) 0); split; congruence. Qed.
Lemma invert3_none : forall pin pout m, invert3 pin pout m = None <-> laplace 3 (matrix_at 3 pin m) = 0.
Proof. intros. rewrite <- det3_laplace. unfold invert3. cbv zeta. destruct (Qc_eq_dec (det3 pin m) 0); split; congruence. Qed.

(** ** the tolerance *)
Lemma Qc_abs_small_nz : forall eps a, 0 < eps -> small (Qc_arith eps) a = false -> a <> 0.
Proof.
  intros eps a He H C. subst a. cbn [small Qc_arith] in H. unfold Qc_abs in H.
  destruct (Qclt_le_dec 0 0) as [Hl|_]; [discriminate Hl|].
  destruct (Qclt_le_dec 0 eps) as [|Hle]; [discriminate|]. apply (Qcle_not_lt _ _ Hle He).
Qed.

Definition not_undef {T} (r : lu_result T) := match r with LuUndefined => False | _ => True end.
Lemma LU_not_undefined : forall eps m n A B, 0 < eps -> LU (Qc_arith eps) m n A B <> LuUndefined.
Proof.
  intros eps m n A B He H.
  assert (Hf : not_undef (lu_forward (Qc_arith eps) m n A B)).
  { unfold lu_forward. apply (loop_inv (fun _ st => not_undef st)); [lia|exact I|].
    intros i st Hi Hst. destruct st as [| |p A1 B1]; try exact Hst. unfold lu_step.
    pose proof (loop_pivot m (Qc_arith eps) i A1 ltac:(lia)) as Hk. set (k := pivot (Qc_arith eps) m i A1) in *. clearbody k.
    destruct (small (Qc_arith eps) (A1 k i)) eqn:Es; [exact I|]. apply (Qc_abs_small_nz eps _ He) in Es.
    destruct (Nat.eqb_spec k i) as [->|Hne].
    - cbn [neg_inv Qc_arith]. destruct (Qc_eq_dec (A1 i i) 0); [congruence|].
      destruct (eliminate _ _ _ _ _ _). exact I.
    - cbn [neg_inv Qc_arith]. rewrite swap_val by lia.
      replace (Nat.leb i i && Nat.ltb i m)%bool with true
        by (symmetry; rewrite andb_true_iff, Nat.leb_le, Nat.ltb_lt; lia).
      unfold swapm. rewrite Nat.eqb_refl. destruct (Qc_eq_dec (A1 k i) 0); [congruence|].
      destruct (eliminate _ _ _ _ _ _). exact I. }
  unfold LU in H. destruct (lu_forward (Qc_arith eps) m n A B); [discriminate|exact Hf|discriminate].
Qed.

Lemma inverse_det_nz : forall eps n A p A' X, invert_gen (Qc_arith eps) n A = LuDone p A' X -> laplace n A <> 0.
Proof.
  intros eps n A p A' X H. destruct (LU_facts _ _ _ _ _ _ _ _ H) as (Hd & _ & _ & Hdet).
  rewrite <- (Hdet _ (laplace_laws n)). rewrite laplace_triangular.
  - destruct (prod_inv n A' Hd) as [H1 H2]. rewrite H2. intros C. apply Qcmult_integral in C. destruct C as [C|C].
    + unfold sgn in C. destruct (p =? 1)%Z; discriminate.
    + revert C. apply inv_nz. exact H1.
  - intros i j Hij _. unfold upper. destruct (Nat.ltb_spec j i); [reflexivity|lia].
Qed.

Lemma singular_degenerate : forall eps n A, 0 < eps -> laplace n A = 0 -> invert_gen (Qc_arith eps) n A = LuDegenerate.
Proof.
  intros eps n A He H. destruct (invert_gen (Qc_arith eps) n A) as [| |p A' X] eqn:E; [reflexivity| |].
  - exfalso. apply (LU_not_undefined eps n n A (identity (Qc_arith eps)) He E).
  - exfalso. apply (inverse_det_nz _ _ _ _ _ _ E H).
Qed.
