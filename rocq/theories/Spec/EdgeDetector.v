(** What the edge detector should compute. *)
From Coq Require Import ZArith List.
Open Scope Z_scope.

(** 8-neighbours, different or equal *)
Definition adjacent (p q : Z * Z) : Prop := Z.abs (fst p - fst q) <= 1 /\ Z.abs (snd p - snd q) <= 1.
(** hysteresis: the pixels linked through candidates to a strong candidate *)
Inductive edge (cand strong : Z * Z -> Prop) : Z * Z -> Prop :=
| edge_strong p : cand p -> strong p -> edge cand strong p
| edge_next p q : edge cand strong p -> adjacent p q -> cand q -> edge cand strong q.

(** smallest value of a non-empty family indexed by 0..L-1 *)
Definition minimum_over (L : nat) (f : nat -> Z) (v : Z) : Prop := (exists l, (l < L)%nat /\ f l = v) /\ forall l, (l < L)%nat -> v <= f l.
Definition inside_image (rows cols : Z) (p : Z * Z) : Prop := 0 <= fst p < rows /\ 0 <= snd p < cols.
