(** Local maxima by direct comparison. *)
From Coq Require Import ZArith List.
Open Scope Z_scope.

Definition in_image (M N : Z) (p : Z * Z) : Prop := 0 <= fst p < M /\ 0 <= snd p < N.
(** Chebyshev distance at most W *)
Definition close (W : Z) (p q : Z * Z) : Prop := Z.abs (fst p - fst q) <= W /\ Z.abs (snd p - snd q) <= W.
(** cells of the (W+1) x (W+1) tiling *)
Definition same_tile (W : Z) (p q : Z * Z) : Prop := fst p / (W + 1) = fst q / (W + 1) /\ snd p / (W + 1) = snd q / (W + 1).
(** contract of the search for the maximum *)
Definition picks_max (f : Z -> Z -> Z) (pick : list (Z * Z) -> Z * Z) : Prop :=
  forall l, l <> nil -> In (pick l) l /\ forall q, In q l -> f (fst q) (snd q) <= f (fst (pick l)) (snd (pick l)).
(** strictly above the H predecessors and not below the H successors along a line of values *)
Definition line_max (v : Z -> Z) (H : Z) : Prop := forall k, 1 <= k <= H -> v (- k) < v 0 /\ v k <= v 0.
