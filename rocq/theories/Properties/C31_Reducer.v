(** C31: reduction of higher-order factors. *)
From Coq Require Import ZArith NArith List Lia.
From Verif Require Import Model.Reducer Spec.Reducer Proofs.Reducer.
Import ListNotations.
Open Scope Z_scope.

(** for every order, energy function, expansion label, current labelling and binary move x, the polynomial handed to the solver takes
    the value of the energy of the moved labels, up to the constant energy of the current labels *)
Theorem C31_polynomial_equals_energy : forall (L : Type) n (E : list L -> Z) alpha cur node x,
  poly_value x (factorReducer n E alpha cur node) =
  E (map (fun i => if x (node i) then alpha else cur i) (seq 0 n)) - E (map cur (seq 0 n)).
Proof. exact @reducer_exact. Qed.
Print Assumptions C31_polynomial_equals_energy.

(** so the move minimising the polynomial minimises the energy *)
Theorem C31_minimisers_agree : forall (L : Type) n (E : list L -> Z) alpha cur node x y,
  poly_value x (factorReducer n E alpha cur node) <= poly_value y (factorReducer n E alpha cur node) <->
  E (map (fun i => if x (node i) then alpha else cur i) (seq 0 n)) <= E (map (fun i => if y (node i) then alpha else cur i) (seq 0 n)).
Proof. intros. rewrite !reducer_exact. lia. Qed.
Print Assumptions C31_minimisers_agree.

(** three variables, a Potts-like energy that is not a sum of pairwise terms *)
Example C31_ex_order3 : let E := fun l : list Z => match l with [a; b; c] => 7 * a * b * c + 3 * a - b * c | _ => 0 end in
  factorReducer 3 E 1 (fun _ => 0) (fun i => Z.of_nat i + 10) =
    [(3, [10]); (0, [11]); (0, [10; 11]); (0, [12]); (0, [10; 12]); (-1, [11; 12]); (7, [10; 11; 12])].
Proof. vm_compute. reflexivity. Qed.
