(* What the terms of a fusion move mean: a term is worth its coefficient when all its variables are taken, and a set of
   taken variables relabels the nodes of the clique. *)
From Coq Require Import ZArith List Bool.
Import ListNotations.
Local Open Scope Z_scope.

Definition term_value (x : Z -> bool) (t : Z * list Z) : Z := if forallb x (snd t) then fst t else 0.
Definition total (l : list Z) : Z := fold_right Z.add 0 l.
Definition terms_value (x : Z -> bool) (ts : list (Z * list Z)) : Z := total (map (term_value x) ts).
Fixpoint relabelled (x : Z -> bool) (alpha : Z) (labeling : Z -> Z) (ns ps : list Z) : list Z :=
  match ns, ps with
  | n :: ns', p :: ps' => (if x n then alpha else labeling p) :: relabelled x alpha labeling ns' ps'
  | _, _ => []
  end.
