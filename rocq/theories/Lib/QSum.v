(* Finite sums of rationals. *)
From Coq Require Import ZArith QArith Qabs Qminmax List Permutation Lia Lqa Morphisms Setoid.
Import ListNotations.
Open Scope Q_scope.

Fixpoint sum (n : nat) (f : nat -> Q) : Q := match n with O => 0 | S k => sum k f + f k end.

Lemma sum_ext n f g : (forall k, (k < n)%nat -> f k == g k) -> sum n f == sum n g.
Proof. induction n as [|n IH]; intros H; cbn [sum]; [ reflexivity | ]. rewrite IH by (intros; apply H; lia). rewrite (H n) by lia. reflexivity. Qed.
Lemma sum_le n f g : (forall k, (k < n)%nat -> f k <= g k) -> sum n f <= sum n g.
Proof. induction n as [|n IH]; intros H; cbn [sum]; [ lra | ]. apply Qplus_le_compat; [ apply IH; intros; apply H | apply H ]; lia. Qed.
Lemma sum_zero n f : (forall k, (k < n)%nat -> f k == 0) -> sum n f == 0.
Proof. intros H. induction n as [|n IH]; cbn [sum]; [ reflexivity | ]. rewrite IH by (intros; apply H; lia). rewrite (H n) by lia. lra. Qed.
Lemma sum_nonneg n f : (forall k, (k < n)%nat -> 0 <= f k) -> 0 <= sum n f.
Proof. intros H. apply Qle_trans with (sum n (fun _ => 0)); [ rewrite sum_zero; [ lra | reflexivity ] | apply sum_le; auto ]. Qed.
Lemma sum_plus n f g : sum n (fun k => f k + g k) == sum n f + sum n g.
Proof. induction n as [|n IH]; cbn [sum]; [ lra | ]. rewrite IH. lra. Qed.
Lemma sum_minus n f g : sum n (fun k => f k - g k) == sum n f - sum n g.
Proof. induction n as [|n IH]; cbn [sum]; [ lra | ]. rewrite IH. lra. Qed.
Lemma sum_scal n a f : sum n (fun k => a * f k) == a * sum n f.
Proof. induction n as [|n IH]; cbn [sum]; [ lra | ]. rewrite IH. lra. Qed.
Lemma sum_scal_r n a f : sum n (fun k => f k * a) == sum n f * a.
Proof. induction n as [|n IH]; cbn [sum]; [ lra | ]. rewrite IH. lra. Qed.
Lemma sum_const n a : sum n (fun _ => a) == inject_Z (Z.of_nat n) * a.
Proof. induction n as [|n IH]; cbn [sum]; [ change (inject_Z (Z.of_nat 0)) with 0; lra | ]. rewrite IH, Nat2Z.inj_succ, <- Z.add_1_r, inject_Z_plus. change (inject_Z 1) with 1. lra. Qed.
Lemma sum_swap n m f : sum n (fun i => sum m (fun j => f i j)) == sum m (fun j => sum n (fun i => f i j)).
Proof.
  induction n as [|n IH]; cbn [sum].
  - rewrite sum_zero; reflexivity.
  - rewrite IH, <- sum_plus. apply sum_ext. reflexivity.
Qed.
Lemma sum_abs n f : Qabs (sum n f) <= sum n (fun k => Qabs (f k)).
Proof. induction n as [|n IH]; cbn [sum]; [ change (Qabs 0) with 0; lra | ]. eapply Qle_trans; [ apply Qabs_triangle | ]. apply Qplus_le_compat; [ exact IH | lra ]. Qed.
Lemma sum_split n m f : sum (n + m) f == sum n f + sum m (fun k => f (n + k)%nat).
Proof. induction m as [|m IH]; cbn [sum]; [ rewrite Nat.add_0_r; lra | ]. rewrite Nat.add_succ_r. cbn [sum]. rewrite IH. lra. Qed.
Lemma sum_head n f : sum (S n) f == f 0%nat + sum n (fun k => f (S k)).
Proof. induction n as [|n IH]; [ cbn [sum]; lra | ]. change (sum (S (S n)) f) with (sum (S n) f + f (S n)). rewrite IH. cbn [sum]. lra. Qed.
Lemma sum_telescope n f : sum n (fun k => f (S k) - f k) == f n - f 0%nat.
Proof. induction n as [|n IH]; cbn [sum]; [ lra | ]. rewrite IH. lra. Qed.
Lemma sum_upto n k f : (k <= n)%nat -> sum n (fun i => if Nat.ltb i k then f i else 0) == sum k f.
Proof.
  intros H. replace n with (k + (n - k))%nat by lia. rewrite sum_split.
  rewrite (sum_ext k _ f), (sum_zero (n - k)); [ lra | | ].
  - intros j J. destruct (Nat.ltb_spec (k + j) k); [ lia | reflexivity ].
  - intros i I. destruct (Nat.ltb_spec i k); [ reflexivity | lia ].
Qed.
Lemma sum_one n i f : (i < n)%nat -> sum n (fun k => if Nat.eqb k i then f k else 0) == f i.
Proof.
  intros H. replace n with (i + S (n - S i))%nat by lia. rewrite sum_split, sum_head.
  rewrite (sum_zero i), (sum_zero (n - S i)).
  - rewrite Nat.add_0_r, Nat.eqb_refl. lra.
  - intros k K. destruct (Nat.eqb_spec (i + S k) i); [ lia | reflexivity ].
  - intros k K. destruct (Nat.eqb_spec k i); [ lia | reflexivity ].
Qed.
(* a rotation of the indices *)
Lemma sum_rotate n r f : (r <= n)%nat -> sum n (fun k => f (if Nat.ltb k (n - r) then k + r else k - (n - r))%nat) == sum n f.
Proof.
  intros H. replace n with ((n - r) + r)%nat at 1 by lia. rewrite sum_split.
  transitivity (sum r f + sum (n - r) (fun k => f (r + k)%nat)).
  - rewrite Qplus_comm. apply Qplus_comp; apply sum_ext; intros k K.
    + destruct (Nat.ltb_spec (n - r + k) (n - r)); [ lia | ]. replace (n - r + k - (n - r))%nat with k by lia. reflexivity.
    + destruct (Nat.ltb_spec k (n - r)); [ | lia ]. rewrite Nat.add_comm. reflexivity.
  - rewrite <- sum_split. replace (r + (n - r))%nat with n by lia. reflexivity.
Qed.

Definition lsum (l : list Q) : Q := fold_right Qplus 0 l.
Lemma lsum_sum l : lsum l == sum (length l) (fun k => nth k l 0).
Proof. induction l as [|x l IH]; [ reflexivity | ]. cbn [length]. rewrite sum_head. cbn [lsum fold_right nth]. fold (lsum l). rewrite IH. reflexivity. Qed.
Lemma lsum_perm l l' : Permutation l l' -> lsum l == lsum l'.
Proof.
  induction 1; cbn [lsum fold_right] in *; fold lsum in *; unfold lsum in *; try lra.
Qed.
Lemma fold_sum {A} (f : A -> Q) l : forall a, fold_left (fun t x => t + f x) l a == a + lsum (map f l).
Proof. induction l as [|x l IH]; intros a; cbn [fold_left map lsum fold_right]; [ lra | ]. rewrite IH. unfold lsum. lra. Qed.
