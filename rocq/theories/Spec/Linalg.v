(** Square matrices over the rationals: product, inverse, linear systems, determinants. *)
From Coq Require Import Arith ZArith QArith Qcanon.
Open Scope Qc_scope.

Fixpoint qsum (n : nat) (f : nat -> Qc) : Qc := match n with O => 0 | S k => qsum k f + f k end.
Definition matmul (n : nat) (A B : nat -> nat -> Qc) : nat -> nat -> Qc := fun i j => qsum n (fun k => A i k * B k j).
Definition delta (i j : nat) : Qc := if Nat.eqb i j then 1 else 0.
Definition two_sided_inverse (n : nat) (A X : nat -> nat -> Qc) : Prop :=
  forall i j, (i < n)%nat -> (j < n)%nat -> matmul n A X i j = delta i j /\ matmul n X A i j = delta i j.

(** the n x n row-major matrix stored at address p *)
Definition matrix_at (n : nat) (p : Z) (m : Z -> Qc) : nat -> nat -> Qc :=
  fun i j => m (p + Z.of_nat (i * n + j))%Z.
Definition disjoint (n : nat) (p q : Z) : Prop := (p + Z.of_nat (n * n) <= q \/ q + Z.of_nat (n * n) <= p)%Z.

(** laws determining the determinant of n x n matrices (n fixed) *)
Record det_laws (n : nat) (D : (nat -> nat -> Qc) -> Qc) : Prop := {
  det_ext : forall A B, (forall i j, (i < n)%nat -> (j < n)%nat -> A i j = B i j) -> D A = D B;
  det_add_row : forall A i j (a : Qc), (i < n)%nat -> (j < n)%nat -> i <> j ->
    D (fun r c => if Nat.eqb r j then A r c + a * A i c else A r c) = D A;
  det_swap : forall A i j, (i < n)%nat -> (j < n)%nat -> i <> j ->
    D (fun r c => if Nat.eqb r i then A j c else if Nat.eqb r j then A i c else A r c) = - D A;
  det_triangular : forall A, (forall i j, (j < i)%nat -> (i < n)%nat -> A i j = 0) ->
    D A = (fix prod k := match k with O => 1 | S l => prod l * A l l end) n }.

(** the determinant, by Laplace expansion along the first column *)
Definition minor (i : nat) (A : nat -> nat -> Qc) : nat -> nat -> Qc :=
  fun r c => A (if Nat.ltb r i then r else S r) (S c).
Fixpoint laplace (n : nat) (A : nat -> nat -> Qc) : Qc :=
  match n with
  | O => 1
  | S k => qsum (S k) (fun i => (if Nat.even i then 1 else - (1)) * A i 0%nat * laplace k (minor i A))
  end.
