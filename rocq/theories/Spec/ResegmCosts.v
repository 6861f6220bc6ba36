(* Distances in an image, and when a pixel has a counterpart. *)
From Coq Require Import ZArith Reals.
Open Scope R_scope.

Definition in_image (rows cols r c : Z) : Prop := (0 <= r < rows /\ 0 <= c < cols)%Z.
Definition distance (r c y x : Z) : R := sqrt (IZR ((y - r) * (y - r) + (x - c) * (x - c))).
(* the distance from a pixel to the nearest one of a set *)
Definition distance_to (rows cols : Z) (P : Z -> Z -> Prop) (r c : Z) (d : R) : Prop :=
  (exists y x, in_image rows cols y x /\ P y x /\ d = distance r c y x) /\ forall y x, in_image rows cols y x -> P y x -> d <= distance r c y x.
