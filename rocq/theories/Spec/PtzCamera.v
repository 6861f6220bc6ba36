(* Directions of a circle of 360 degrees. *)
From Coq Require Import ZArith Reals.
Open Scope R_scope.

Definition same_direction (a b : R) : Prop := exists k : Z, a = b + 360 * IZR k.
(* the angle by which one has to turn at least *)
Definition turn (a b d : R) : Prop := (exists k : Z, d = Rabs (b - a + 360 * IZR k)) /\ forall k : Z, d <= Rabs (b - a + 360 * IZR k).
