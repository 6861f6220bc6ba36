(* Hysteresis: a pixel is an edge if a chain of adjacent weak pixels leads from it to a strong one. *)
From Coq Require Import ZArith QArith List.
From Verif Require Import Model.Canny.
Open Scope Z_scope.

Definition adjacent (p q : Z * Z) : Prop := Z.abs (fst p - fst q) <= 1 /\ Z.abs (snd p - snd q) <= 1.
(* a pixel of the image that is a maximum across its edge and exceeds a threshold; magnitudes are kept squared *)
Definition exceeds (i : image) (t : Q) (p : Z * Z) : Prop := (0 <= fst p < rows i /\ 0 <= snd p < cols i) /\ peak i p = true /\ (t * t < inject_Z (mag i p))%Q.
Inductive edge (i : image) (low high : Q) : Z * Z -> Prop :=
| Strong p : exceeds i low p -> exceeds i high p -> edge i low high p
| Next p q : exceeds i low p -> adjacent p q -> edge i low high q -> edge i low high p.
