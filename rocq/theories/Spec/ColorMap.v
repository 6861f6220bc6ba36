(* Distinct colors for distinct values. *)
From Coq Require Import ZArith List.
Import ListNotations.
Open Scope Z_scope.

Definition rgb := (Z * Z * Z)%type.
Definition tells_apart (m : list Z) (image : list rgb) : Prop :=
  length image = length m /\
  forall i j, (i < length m)%nat -> (j < length m)%nat -> (nth i image (0, 0, 0) = nth j image (0, 0, 0) <-> nth i m 0 = nth j m 0).
(* at most k distinct values *)
Definition values_at_most (k : nat) (m : list Z) : Prop := exists l, (length l <= k)%nat /\ incl m l.
Definition colorful (c : rgb) : Prop := let '(b, g, r) := c in ~ (b = g /\ g = r) /\ 0 <= b <= 255 /\ 0 <= g <= 255 /\ 0 <= r <= 255.
