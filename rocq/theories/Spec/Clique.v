(* Reparametrized energies of a clique, said without the code. *)
From Coq Require Import ZArith List Bool.
From Verif Require Import Spec.Submodular.
Import ListNotations.
Open Scope Z_scope.

Definition inside (S i : Z) : Prop := Z.testbit S i = true.
(* sets with u and without v *)
Definition separates (n u v S : Z) : Prop := within n S /\ inside S u /\ ~ inside S v.
Definition capacity (n : Z) (f : Z -> Z) (u v c : Z) : Prop :=
  (forall S, separates n u v S -> c <= f S) /\ exists S, separates n u v S /\ f S = c.
(* no set is worth less than none and all, which are worth nothing *)
Definition normal (n : Z) (f : Z -> Z) : Prop :=
  submodular n f /\ (forall S, within n S -> 0 <= f S) /\ f 0 = 0 /\ f (whole n) = 0.
Definition subset (A B : Z) : Prop := forall i, 0 <= i -> inside A i -> inside B i.
(* the least set worth nothing that holds u *)
Definition least_tight (n : Z) (f : Z -> Z) (u M : Z) : Prop :=
  within n M /\ f M = 0 /\ inside M u /\ forall S, within n S -> f S = 0 -> inside S u -> subset M S.
(* the energy told by a clique and its reparametrization *)
Definition told (n : Z) (f ci : Z -> Z) (S : Z) : Z := f S + weight n ci S.
(* a sum over the nodes 0..N-1, and over those labelled 1 *)
Fixpoint total (N : nat) (x : Z -> Z) : Z := match N with O => 0 | S m => total m x + x (Z.of_nat m) end.
Definition labelled (N : nat) (L : Z -> bool) (x : Z -> Z) : Z := total N (fun j => if L j then x j else 0).
(* S is the set of the nodes of a clique that are labelled 1 *)
Definition part (n : Z) (nodes : Z -> Z) (L : Z -> bool) (S : Z) : Prop := within n S /\ forall i, 0 <= i < n -> Z.testbit S i = L (nodes i).
