(* How many contour points lie in a bin of the log-polar window around a position. *)
From Coq Require Import ZArith List Bool.
From Verif Require Import Lib.Grid.
Import ListNotations.
Open Scope Z_scope.

Definition seen (reach : Z) (lut : Z -> Z -> Z) (key : Z * Z) (b : Z) (pt : Z * Z) : bool :=
  (Z.abs (fst pt - fst key) <=? reach) && (Z.abs (snd pt - snd key) <=? reach) && (lut (fst pt - fst key) (snd pt - snd key) =? b) && negb (b =? -1).
Definition around (reach : Z) (lut : Z -> Z -> Z) (pts : list (Z * Z)) (key : Z * Z) (b : Z) : Z := count (seen reach lut key b) pts.
(* how often a position is in a list *)
Definition times (q : Z * Z) (l : list (Z * Z)) : Z := count (fun p => (fst q =? fst p) && (snd q =? snd p)) l.
