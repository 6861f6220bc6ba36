(* Weighted means over images, and the recurrences of the transform domain filter. *)
From Coq Require Import ZArith Reals List.
From Verif Require Import Lib.Grid.
Import ListNotations.
Open Scope R_scope.

Definition total {A} (l : list A) (f : A -> R) : R := fold_right (fun x s => f x + s) 0 l.
(* positive weights of all pixels, with sum one *)
Definition weighting (rows cols : Z) (w : Z * Z -> R) : Prop :=
  (forall q, In q (grid 0 rows 0 cols) -> 0 < w q) /\ total (grid 0 rows 0 cols) w = 1.
Definition mean (rows cols : Z) (w : Z * Z -> R) (f : Z -> Z -> R) : R := total (grid 0 rows 0 cols) (fun q => w q * f (fst q) (snd q)).
(* every row, first from left to right and then from right to left, is mixed with its already mixed neighbour *)
Definition mixed (rows cols : Z) (w f g : Z -> Z -> R) : Prop :=
  forall r, (0 <= r < rows)%Z -> exists h : Z -> R,
    h 0%Z = f r 0%Z /\
    (forall c, (1 <= c < cols)%Z -> h c = (1 - w r c) * f r c + w r c * h (c - 1)%Z) /\
    g r (cols - 1)%Z = h (cols - 1)%Z /\
    (forall c, (0 <= c < cols - 1)%Z -> g r c = (1 - w r (c + 1)%Z) * h c + w r (c + 1)%Z * g r (c + 1)%Z).
(* the squared length of a vector *)
Definition energy (v : list R) : R := total v (fun x => x * x).
