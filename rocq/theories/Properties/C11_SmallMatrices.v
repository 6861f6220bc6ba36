(** C11: determinant, inverse and LU of small matrices, over exact rationals. *)
From Coq Require Import Arith QArith Qcanon ZArith.
From Verif Require Import Model.Linalg Spec.Linalg Proofs.Linalg Proofs.Determinant Proofs.LinalgSmall.
Open Scope Qc_scope.

(** determinant<1>, <2>, <3> *)
Theorem C11_determinant_small : forall p m,
  det1 p m = laplace 1 (matrix_at 1 p m) /\ det2 p m = laplace 2 (matrix_at 2 p m) /\ det3 p m = laplace 3 (matrix_at 3 p m).
Proof. intros p m. exact (conj (det1_laplace p m) (conj (det2_laplace p m) (det3_laplace p m))). Qed.
Print Assumptions C11_determinant_small.

(** determinant<N> through LU, any N: the product whose reciprocal is returned is 1/det *)
Theorem C11_determinant_general : forall eps n A q, det_recip (Qc_arith eps) n A = Some q -> q <> 0 /\ laplace n A = / q.
Proof. intros eps n A q. exact (det_recip_correct eps n A q (laplace n) (laplace_laws n)). Qed.
Print Assumptions C11_determinant_general.

(** LU with a right-hand side solves A X = B, and the solution is unique *)
Theorem C11_LU_solves : forall eps m n A B p A' X, LU (Qc_arith eps) m n A B = LuDone p A' X ->
  (forall i j, (i < m)%nat -> (j < n)%nat -> matmul m A X i j = B i j) /\
  (forall Y, (forall i j, (i < m)%nat -> (j < n)%nat -> matmul m A Y i j = B i j) ->
     forall i j, (i < m)%nat -> (j < n)%nat -> Y i j = X i j).
Proof. intros eps m n A B p A' X H. destruct (LU_facts _ _ _ _ _ _ _ _ H) as (_ & H1 & H2 & _). exact (conj H1 H2). Qed.
Print Assumptions C11_LU_solves.

Theorem C11_invert_small : forall pin pout m m',
  (invert1 pin pout m = Some m' -> disjoint 1 pin pout -> two_sided_inverse 1 (matrix_at 1 pin m) (matrix_at 1 pout m')) /\
  (invert2 pin pout m = Some m' -> disjoint 2 pin pout -> two_sided_inverse 2 (matrix_at 2 pin m) (matrix_at 2 pout m')) /\
  (invert3 pin pout m = Some m' -> disjoint 3 pin pout -> two_sided_inverse 3 (matrix_at 3 pin m) (matrix_at 3 pout m')).
Proof. intros pin pout m m'. exact (conj (invert1_ok pin pout m m') (conj (invert2_ok pin pout m m') (invert3_ok pin pout m m'))). Qed.
Print Assumptions C11_invert_small.

(** failure is reported exactly for singular matrices *)
Theorem C11_invert_small_fails_iff_singular : forall pin pout m,
  (invert2 pin pout m = None <-> laplace 2 (matrix_at 2 pin m) = 0) /\
  (invert3 pin pout m = None <-> laplace 3 (matrix_at 3 pin m) = 0).
Proof. intros pin pout m. exact (conj (invert2_none pin pout m) (invert3_none pin pout m)). Qed.
Print Assumptions C11_invert_small_fails_iff_singular.

Theorem C11_invert_general : forall eps n A p A' X, invert_gen (Qc_arith eps) n A = LuDone p A' X -> two_sided_inverse n A X.
Proof. exact invert_gen_correct. Qed.
Print Assumptions C11_invert_general.

Theorem C11_invert_general_reports_singular : forall eps n A, 0 < eps -> laplace n A = 0 -> invert_gen (Qc_arith eps) n A = LuDegenerate.
Proof. exact singular_degenerate. Qed.
Print Assumptions C11_invert_general_reports_singular.

(** the converse fails: an invertible (diagonal) matrix below the absolute tolerance is reported as singular *)
Theorem C11_invert_general_only_singular_refuted : exists eps A, 0 < eps /\ laplace 4 A <> 0 /\ invert_gen (Qc_arith eps) 4 A = LuDegenerate.
Proof.
  exists (Q2Qc (1 # 1000)), (fun i j => if Nat.eqb i j then Q2Qc (1 # 2000) else 0).
  split; [reflexivity|]. split; [vm_compute; discriminate|vm_compute; reflexivity].
Qed.
Print Assumptions C11_invert_general_only_singular_refuted.

(** in-place inversion (input and output the same buffer) is wrong for 2x2 and 3x3 *)
Theorem C11_invert_in_place_refuted : exists p m m2 m3, 
  invert2 p p m = Some m2 /\ ~ two_sided_inverse 2 (matrix_at 2 p m) (matrix_at 2 p m2) /\
  invert3 p p m = Some m3 /\ ~ two_sided_inverse 3 (matrix_at 3 p m) (matrix_at 3 p m3).
Proof.
  set (m := fun a : Z => if (a =? 0)%Z then 1 else if (a =? 3)%Z then Q2Qc 2 else if (a =? 4)%Z then Q2Qc 2 else if (a =? 8)%Z then Q2Qc 3 else 0).
  exists 0%Z, m. do 2 eexists. split; [reflexivity|]. split; [|split; [reflexivity|]].
  - intros H. destruct (H 0%nat 0%nat ltac:(repeat constructor) ltac:(repeat constructor)) as [E _]. vm_compute in E. discriminate.
  - intros H. destruct (H 2%nat 2%nat ltac:(repeat constructor) ltac:(repeat constructor)) as [E _]. vm_compute in E. discriminate.
Qed.
Print Assumptions C11_invert_in_place_refuted.

(** integer element types: determinant<4,int> of diag(2,1,1,1) ends in a division by zero, and LU of a singular integer
    matrix divides by zero inside *)
Theorem C11_integer_elements_refuted :
  det_recip Z_arith 4 (fun i j => if Nat.eqb i j then (if Nat.eqb i 0 then 2 else 1)%Z else 0%Z) = Some 0%Z /\
  LU Z_arith 4 0 (fun _ _ => 0%Z) (fun _ _ => 0%Z) = LuUndefined.
Proof. split; vm_compute; reflexivity. Qed.
Print Assumptions C11_integer_elements_refuted.

Definition C11_ex_matrix : nat -> nat -> Qc := fun i j => if Nat.eqb (i + j) 3 then Q2Qc 2 else if Nat.eqb i 3 then 1 else 0.
Example C11_ex_general : (match invert_gen (Qc_arith (Q2Qc (1 # 1000))) 4 C11_ex_matrix with LuDone p _ X => X 3%nat 0%nat = Q2Qc (1 # 2) | _ => False end)
  /\ det_recip (Qc_arith (Q2Qc (1 # 1000))) 4 C11_ex_matrix = Some (Q2Qc (1 # 16)) /\ laplace 4 C11_ex_matrix = Q2Qc 16.
Proof. vm_compute. repeat split. Qed.
Example C11_ex_singular : laplace 4 (fun i j => Q2Qc (inject_Z (Z.of_nat (i + j)))) = 0 /\ 0 < Q2Qc (1 # 1000).
Proof. vm_compute. split; reflexivity. Qed.
