(** lv::gm::factorReducer, modules/utils/include/litiv/utils/opengm.hpp:313-343 and 346-376 (same algorithm for an opengm factor).
    Energies are exact integers (the C++ TValue is a floating point type). The order is any natural number: 1u<<nOrder is assumed not to
    overflow. An energy function receives the list of labels of the clique variables. *)
From Coq Require Import ZArith NArith List Bool.
Import ListNotations.
Open Scope Z_scope.

Definition coeffs := N -> Z.
Definition upd (c : coeffs) (k : N) (v : Z) : coeffs := fun j => if N.eqb j k then v else c j.
Definition nrange (a n : nat) : list N := map N.of_nat (seq a n).
(** opengm.hpp:321-322 labels of assignment a *)
Definition labels {L} (n : nat) (alpha : L) (cur : nat -> L) (a : N) : list L :=
  map (fun i => if N.testbit a (N.of_nat i) then alpha else cur i) (seq 0 n).
(** opengm.hpp:325-327 parity of the symmetric difference *)
Definition parity (n : nat) (a s : N) : bool :=
  fold_left (fun p i => xorb p (N.testbit (N.lxor a s) (N.of_nat i))) (seq 0 n) false.
(** opengm.hpp:323-332 body for one assignment; !(nAssignIdx & ~nAssignSubsetIdx) *)
Definition add_one (n : nat) (a : N) (e : Z) (c : coeffs) (s : N) : coeffs :=
  if N.eqb (N.ldiff a s) 0 then upd c s (c s + (if parity n a s then - e else e)) else c.
(** opengm.hpp:320-334 *)
Definition coefficients {L} (n : nat) (E : list L -> Z) (alpha : L) (cur : nat -> L) : coeffs :=
  fold_left (fun c a => fold_left (add_one n a (E (labels n alpha cur a))) (nrange 1 (2 ^ n - 1)) c) (nrange 0 (2 ^ n)) (fun _ => 0).
(** opengm.hpp:335-342 the terms given to the reducer: coefficient and variables (sorted in the code; a product does not depend on it) *)
Definition members (n : nat) (node : nat -> Z) (s : N) : list Z :=
  map node (filter (fun i => N.testbit s (N.of_nat i)) (seq 0 n)).
Definition factorReducer {L} (n : nat) (E : list L -> Z) (alpha : L) (cur : nat -> L) (node : nat -> Z) : list (Z * list Z) :=
  map (fun s => (coefficients n E alpha cur s, members n node s)) (nrange 1 (2 ^ n - 1)).
