From Coq Require Import ZArith List.
Import ListNotations.
Open Scope Z_scope.
(** mathematical number of elements: no dimension at all means no element *)
Definition elements (m : list Z) : Z := match m with [] => 0 | _ => fold_right Z.mul 1 m end.
