(* Set functions, said without the code: the sets of elements 0..n-1 are the numbers below 2^n, element i is in S if bit i of S is set. *)
From Coq Require Import ZArith List Bool.
Import ListNotations.
Open Scope Z_scope.

Definition within (n S : Z) : Prop := 0 <= S < 2 ^ n.
Definition submodular (n : Z) (f : Z -> Z) : Prop :=
  forall A B, within n A -> within n B -> f (Z.lor A B) + f (Z.land A B) <= f A + f B.
(* the sum of psi over the elements of S *)
Fixpoint weigh (n : nat) (psi : Z -> Z) (S : Z) : Z :=
  match n with O => 0 | Datatypes.S m => weigh m psi S + (if Z.testbit S (Z.of_nat m) then psi (Z.of_nat m) else 0) end.
Definition weight (n : Z) (psi : Z -> Z) (S : Z) : Z := weigh (Z.to_nat n) psi S.
Definition size (n S : Z) : Z := weight n (fun _ => 1) S.
Definition whole (n : Z) : Z := 2 ^ n - 1.
Definition without (n S : Z) : Z := Z.ldiff (whole n) S.
Definition same (n : Z) (f g : Z -> Z) : Prop := forall S, within n S -> f S = g S.
Definition below (n : Z) (f g : Z -> Z) : Prop := forall S, within n S -> f S <= g S.
(* all else in memory is as before *)
Definition contained (n : Z) (f g : Z -> Z) : Prop := forall S, ~ within n S -> f S = g S.
