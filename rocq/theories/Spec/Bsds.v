(* What the edge evaluation should count. *)
From Coq Require Import ZArith QArith List Bool Permutation.
From Verif Require Import Lib.Grid.
Import ListNotations.
Open Scope Z_scope.

(* two how_many no further apart than 0.0075 times the diagonal of the image *)
Definition close (h w : Z) (p q : Z * Z) : bool :=
  160000 * ((fst p - fst q) * (fst p - fst q) + (snd p - snd q) * (snd p - snd q)) <=? 9 * (w * w + h * h).
(* some pixel of a mask is close to p *)
Definition detected (h w : Z) (m : Z -> Z -> bool) (p : Z * Z) : bool :=
  existsb (fun q => m (fst q) (snd q) && close h w p q) (grid 0 h 0 w).
Definition how_many (h w : Z) (P : Z * Z -> bool) : Z := count P (grid 0 h 0 w).
Definition total {A} (f : A -> Z) (l : list A) : Z := fold_right Z.add 0 (map f l).

Definition rising (l : list Z) : Prop := forall i j a b, (i < j)%nat -> nth_error l i = Some a -> nth_error l j = Some b -> a < b.
