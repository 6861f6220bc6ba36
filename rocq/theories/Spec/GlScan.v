(* Sums of the first elements of a row. *)
From Coq Require Import ZArith List.
From Verif Require Import Lib.Grid.
Import ListNotations.
Open Scope Z_scope.

(* row a + ... + row (b - 1) *)
Definition sum_between (row : Z -> Z) (a b : Z) : Z := fold_right Z.add 0 (map row (zrange a (b - a))).
Definition sum_before (row : Z -> Z) (i : Z) : Z := sum_between row 0 i.
(* the last elements of the first b blocks of n, added up *)
Definition block_ends (n : Z) (row : Z -> Z) (b : Z) : Z := fold_right Z.add 0 (map (fun c => row (c * n - 1)) (zrange 1 b)).
