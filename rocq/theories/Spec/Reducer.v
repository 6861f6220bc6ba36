From Coq Require Import ZArith List Bool.
Import ListNotations.
Open Scope Z_scope.
(** value of a pseudo-boolean polynomial given by its terms: a term counts when all its variables are set *)
Definition term_value (x : Z -> bool) (t : Z * list Z) : Z := if forallb x (snd t) then fst t else 0.
Definition poly_value (x : Z -> bool) (ts : list (Z * list Z)) : Z := fold_right Z.add 0 (map (term_value x) ts).
