(** Byte masks, the pixels away from the border of an image, and those close to a region. *)
From Coq Require Import ZArith List.
From Verif Require Import Model.RoiTable.
Open Scope Z_scope.

Definition inside (h w : Z) (p : Z * Z) : Prop := 0 <= fst p < h /\ 0 <= snd p < w.
Definition bytes (m : mask) : Prop := forall y x, inside (rows m) (cols m) (y, x) -> 0 <= px m y x <= 255.
(** at least b pixels away from each side of the image *)
Definition away (b h w : Z) (p : Z * Z) : Prop := b <= fst p < h - b /\ b <= snd p < w - b.
(** within b rows and b columns of a pixel of the region *)
Definition close (b : Z) (m : mask) (p : Z * Z) : Prop := exists q, inside (rows m) (cols m) q /\ Z.abs (fst p - fst q) <= b /\ Z.abs (snd p - snd q) <= b /\ px m (fst q) (snd q) <> 0.
Fixpoint increasing (l : list Z) : Prop := match l with nil => True | cons a r => (forall b, In b r -> a < b) /\ increasing r end.
