(* lv::gm::factorReducer (modules/utils/include/litiv/utils/opengm.hpp:312-343 for a clique, 345-375 for an opengm
   factor): how the cost of one clique of a graphical model is rewritten, for a fusion move, as the
   polynomial of 0/1 variables that the move's minimizer receives. Costs are integers without an upper limit (the code
   uses int32 and signed additions); both overloads run the same loops, and differ only in where node indices come
   from, so one definition stands for the two. *)
From Coq Require Import ZArith List Bool.
From Verif Require Import Lib.Grid.
Import ListNotations.
Local Open Scope Z_scope.

(* opengm.hpp:262-287: a clique is its nodes' indices in the graph, their indices in the label map, and a cost
   function of the labels of its nodes *)
Record clique := Clique { nodes : list Z; places : list Z; cost : list Z -> Z }.

(* opengm.hpp:321-322: the labels of the clique when the variables of the bits of [mask] take the new label *)
Fixpoint fused_from (i : Z) (alpha : Z) (labeling : Z -> Z) (ps : list Z) (mask : Z) : list Z :=
  match ps with
  | [] => []
  | p :: ps' => (if Z.testbit mask i then alpha else labeling p) :: fused_from (i + 1) alpha labeling ps' mask
  end.
Definition fused (alpha : Z) (labeling : Z -> Z) (c : clique) (mask : Z) : list Z := fused_from 0 alpha labeling (places c) mask.

(* opengm.hpp:324: every bit of the assignment is a bit of the subset *)
Definition within (assign subset : Z) : bool := Z.land assign (Z.lnot subset) =? 0.

(* opengm.hpp:325-327: the parity of the number of bits in which the two differ *)
Definition parity (order : Z) (assign subset : Z) : bool :=
  fold_left (fun b i => xorb b (Z.testbit (Z.lxor assign subset) i)) (zrange 0 order) false.

Definition order (c : clique) : Z := Z.of_nat (length (places c)).

(* opengm.hpp:318 and 320-333: the coefficients start at zero, and each assignment adds its cost, with a sign, to the
   subsets it is within; the coefficient of the empty subset is left at zero *)
Definition add_assignment (alpha : Z) (labeling : Z -> Z) (c : clique) (coeffs : Z -> Z) (assign : Z) : Z -> Z :=
  fold_left (fun co subset =>
      if within assign subset then
        (fun s => if s =? subset then co s + (if parity (order c) assign subset then - cost c (fused alpha labeling c assign) else cost c (fused alpha labeling c assign)) else co s)
      else co)
    (zrange 1 (2 ^ order c - 1)) coeffs.
Definition coefficients (alpha : Z) (labeling : Z -> Z) (c : clique) : Z -> Z :=
  fold_left (add_assignment alpha labeling c) (zrange 0 (2 ^ order c)) (fun _ => 0).

(* opengm.hpp:335-338: the variables of a term *)
Fixpoint chosen_from (i : Z) (ns : list Z) (mask : Z) : list Z :=
  match ns with
  | [] => []
  | n :: ns' => if Z.testbit mask i then n :: chosen_from (i + 1) ns' mask else chosen_from (i + 1) ns' mask
  end.

(* opengm.hpp:339: std::sort on the indices, here by insertion *)
Fixpoint insert (x : Z) (l : list Z) : list Z :=
  match l with [] => [x] | y :: l' => if x <=? y then x :: l else y :: insert x l' end.
Definition sort (l : list Z) : list Z := fold_right insert [] l.

(* opengm.hpp:334-341: one term for each non-empty subset, in order of its mask: the coefficient, and the variables *)
Definition factor_terms (alpha : Z) (labeling : Z -> Z) (c : clique) : list (Z * list Z) :=
  map (fun subset => (coefficients alpha labeling c subset, sort (chosen_from 0 (nodes c) subset))) (zrange 1 (2 ^ order c - 1)).
