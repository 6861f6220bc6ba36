(* Medians of small neighbourhoods. *)
From Coq Require Import ZArith List.
From Verif Require Import Lib.Grid.
Open Scope Z_scope.

(* the pixels at most r rows and columns from (x, y) *)
Definition square (r x y : Z) : list (Z * Z) := list_prod (zrange (x - r) (2 * r + 1)) (zrange (y - r) (2 * r + 1)).
(* at least half are not above v, and at least half are not below *)
Definition is_median (v : Z) (l : list Z) : Prop := Z.of_nat (length l) <= 2 * count (fun a => a <=? v) l /\ Z.of_nat (length l) <= 2 * count (fun a => v <=? a) l.
