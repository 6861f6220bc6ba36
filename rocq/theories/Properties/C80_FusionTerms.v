(* C80: the terms given to the solver of a fusion move are worth the change of the clique's cost, for every move. *)
From Coq Require Import ZArith List Bool Sorted.
From Verif Require Import Lib.Grid Model.FusionTerms Spec.FusionTerms.
From Verif Require Proofs.FusionTerms.
Import ListNotations.
Open Scope Z_scope.

(* Whatever set of variables is taken, the terms of a clique add up to its cost after the move minus its cost before. *)
Theorem C80_exact : forall x alpha labeling c, length (nodes c) = length (places c) ->
  terms_value x (factor_terms alpha labeling c) = cost c (relabelled x alpha labeling (nodes c) (places c)) - cost c (map labeling (places c)).
Proof. exact FusionTerms.terms_are_the_change. Qed.
Print Assumptions C80_exact.

(* Each term names some of the clique's nodes, at least one, in increasing order; there is one term for each non-empty set of nodes. *)
Theorem C80_shape : forall alpha labeling c, length (nodes c) = length (places c) ->
  Z.of_nat (length (factor_terms alpha labeling c)) = 2 ^ Z.of_nat (length (places c)) - 1 /\
  forall co vs, In (co, vs) (factor_terms alpha labeling c) -> Sorted Z.le vs /\ vs <> [] /\ incl vs (nodes c).
Proof. intros alpha labeling c L. split; [ apply FusionTerms.terms_count | intros co vs I; now apply (FusionTerms.terms_shape alpha labeling c co vs L) ]. Qed.
Print Assumptions C80_shape.

(* Two nodes with a truncated distance; three nodes that pay unless they agree. *)
Definition edge : clique := Clique [4; 2] [40; 20] (fun ls => match ls with [a; b] => Z.min 3 (Z.abs (a - b)) | _ => 0 end).
Definition triple : clique := Clique [1; 2; 3] [10; 20; 30] (fun ls => match ls with [a; b; c] => if (a =? b) && (b =? c) then 0 else 7 | _ => 0 end).
Definition labels (p : Z) : Z := if p =? 40 then 6 else 5.
Example C80_ex_edge : factor_terms 9 labels edge = [(2, [4]); (2, [2]); (-5, [2; 4])].
Proof. reflexivity. Qed.
Example C80_ex_edge_move : terms_value (fun n => n =? 4) (factor_terms 9 labels edge) = 2 /\ terms_value (fun _ => true) (factor_terms 9 labels edge) = -1.
Proof. split; reflexivity. Qed.
Example C80_ex_triple : factor_terms 9 labels triple = [(7, [1]); (7, [2]); (-7, [1; 2]); (7, [3]); (-7, [1; 3]); (-7, [2; 3]); (0, [1; 2; 3])].
Proof. reflexivity. Qed.
