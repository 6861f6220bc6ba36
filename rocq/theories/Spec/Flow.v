(* Energies of labellings of a graph with cliques, said without the code. *)
From Coq Require Import ZArith List Bool.
From Verif Require Import Spec.Submodular Spec.Clique.
Import ListNotations.
Open Scope Z_scope.

(* the set of the places of a clique whose nodes are labelled 1 *)
Fixpoint picked (n : nat) (nodes : Z -> Z) (L : Z -> bool) : Z :=
  match n with O => 0 | Datatypes.S m => picked m nodes L + (if L (nodes (Z.of_nat m)) then 2 ^ Z.of_nat m else 0) end.
(* the terminals cut by a labelling, and the value of all cliques *)
Definition cut (N : Z) (si it : Z -> Z) (L : Z -> bool) : Z := total (Z.to_nat N) (fun j => if L j then it j else si j).
Definition cliques (C : Z) (size : Z -> Z) (nodes : Z -> Z -> Z) (tables : Z -> Z -> Z) (L : Z -> bool) : Z :=
  total (Z.to_nat C) (fun c => tables c (picked (Z.to_nat (size c)) (nodes c) L)).
