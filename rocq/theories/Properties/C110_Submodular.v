(* C110: tables of set functions: the check of submodularity, linear terms, normal form. *)
From Coq Require Import ZArith List Bool Lia.
From Verif Require Import Lib.Grid Model.Submodular Spec.Submodular Proofs.Submodular Proofs.SubmodularLinear Proofs.SubmodularNormal.
Import ListNotations.
Open Scope Z_scope.

(* a table given by its values *)
Definition values (l : list Z) (s : Z) : Z := nth (Z.to_nat s) l 0.
Definition shown (l : list Z) (r : run table) : list Z := match r with Done g => map g l | _ => [] end.
(* the edges cut in a triangle, plus 5 *)
Definition triangle : table := values [5; 7; 7; 7; 7; 7; 7; 5].

(* CheckSubmodular looks at pairs of elements only, and yet decides submodularity: f(A + B) + f(A and B) <= f(A) + f(B) for all sets. *)
Theorem C110_check n f : 0 <= n < 32 -> (check_submodular n f = true <-> submodular n f).
Proof. intros H. apply check_iff. lia. Qed.
Print Assumptions C110_check.
Example C110_ex_check : submodular 3 triangle /\ ~ submodular 3 (values [0; 0; 0; 1; 0; 1; 1; 3]).
Proof. split; [apply C110_check; [lia|reflexivity]|]. intros H. apply C110_check in H; [discriminate|lia]. Qed.

(* AddLinear adds to each set the sum of psi over its elements, to each set once, and touches nothing else; no undefined behaviour. *)
Theorem C110_add z n psi f : 0 <= n < 32 -> exists g, add_linear z n psi f = Done g /\ (forall S, within n S -> g S = f S + weight n psi S) /\ contained n g f.
Proof. intros H. apply add_linear_ok. lia. Qed.
Print Assumptions C110_add.
Example C110_ex_add : shown [0; 1; 2; 3; 4; 5; 6; 7] (add_linear None 3 (values [1; 10; 100]) triangle) = [5; 8; 17; 18; 107; 108; 117; 116].
Proof. reflexivity. Qed.
Theorem C110_add_submodular z n psi f g : 0 <= n < 32 -> add_linear z n psi f = Done g -> (submodular n g <-> submodular n f).
Proof. intros H. apply add_linear_submodular. lia. Qed.
Print Assumptions C110_add_submodular.

(* SubtractLinear subtracts psi1 of the elements in a set and psi2 of those outside. *)
Theorem C110_subtract z n psi1 psi2 f : 0 <= n < 32 -> exists g, subtract_linear z n psi1 psi2 f = Done g /\
  (forall S, within n S -> g S = f S - weight n psi1 S - weight n psi2 (without n S)) /\ contained n g f.
Proof. intros H. apply subtract_linear_ok. lia. Qed.
Print Assumptions C110_subtract.
Example C110_ex_subtract : shown [0; 1; 2; 7] (subtract_linear None 3 (values [1; 10; 100]) (values [2; 20; 200]) triangle) = [-217; -214; -205; -106].
Proof. reflexivity. Qed.

(* Normalize: for a submodular table no ASSERT fails; the result is nonnegative, zero for no element and for all, and still submodular; it is the old table less its value for no element, plus psi. *)
Theorem C110_normalize z n f psi : 0 <= n < 32 -> submodular n f -> exists g p, normalize z n f psi = Done (Some (g, p)) /\
  (forall S, within n S -> g S = f S - f 0 + weight n p S) /\ (forall S, within n S -> 0 <= g S) /\ g 0 = 0 /\ g (whole n) = 0 /\ submodular n g /\
  (forall i, ~ 0 <= i < n -> p i = psi i).
Proof. intros H. apply normalize_ok. lia. Qed.
Print Assumptions C110_normalize.
Example C110_ex_normalize : match normalize None 3 (values [5; 8; 17; 18; 107; 108; 117; 116]) (fun _ => 0) with Done (Some (g, p)) => (map g [0; 1; 2; 3; 4; 5; 6; 7], map p [0; 1; 2]) | _ => ([], []) end
  = ([0; 0; 2; 0; 4; 2; 4; 0], [-3; -10; -98]).
Proof. reflexivity. Qed.
(* The header says f'(S) = f(S) + psi(S): the constant is missing. *)
Theorem C110_normalize_refuted : exists n f psi g p, 0 <= n < 32 /\ submodular n f /\ normalize None n f psi = Done (Some (g, p)) /\ exists S, within n S /\ g S <> f S + weight n p S.
Proof.
  destruct (C110_normalize None 3 triangle (fun _ => 0) ltac:(lia) (proj1 C110_ex_check)) as (g & p & E & _ & _ & G0 & _). exists 3, triangle, (fun _ => 0), g, p.
  split; [lia|]. split; [exact (proj1 C110_ex_check)|]. split; [exact E|]. exists 0. split; [unfold within; cbn; lia|]. rewrite G0, weight_0. discriminate.
Qed.
Print Assumptions C110_normalize_refuted.

(* ZeroMarginalSet: adding elements of s changes nothing any more, sets disjoint from s keep their value, and a submodular table stays so. *)
Theorem C110_zero n s f : 0 <= n < 32 -> 0 <= s < 2 ^ 32 ->
  (forall T, within n T -> zero_marginal n s f T = f (Z.ldiff T s)) /\
  (forall T U, within n T -> within n U -> Z.ldiff U s = 0 -> zero_marginal n s f (Z.lor T U) = zero_marginal n s f T) /\
  (forall T, within n T -> Z.land T s = 0 -> zero_marginal n s f T = f T) /\ contained n (zero_marginal n s f) f.
Proof.
  intros Hn Hs. destruct (zero_marginal_ok n s f Hn Hs) as [A B]. split; [exact A|]. split; [|split; [|exact B]].
  - intros T U WT WU E. rewrite !A by (assumption || apply within_lor; lia || assumption). f_equal. apply bits_ext. intros b Hb. assert (X : Z.testbit (Z.ldiff U s) b = false) by (rewrite E; apply Z.bits_0).
    rewrite Z.ldiff_spec in X. rewrite !Z.ldiff_spec, Z.lor_spec. destruct (Z.testbit T b), (Z.testbit U b), (Z.testbit s b); try reflexivity; discriminate.
  - intros T WT E. rewrite A by assumption. f_equal. apply bits_ext. intros b Hb. assert (X : Z.testbit (Z.land T s) b = false) by (rewrite E; apply Z.bits_0).
    rewrite Z.land_spec in X. rewrite Z.ldiff_spec. destruct (Z.testbit T b), (Z.testbit s b); try reflexivity; discriminate.
Qed.
Print Assumptions C110_zero.
Theorem C110_zero_submodular n s f : 0 <= n < 32 -> 0 <= s < 2 ^ 32 -> submodular n f -> submodular n (zero_marginal n s f).
Proof. exact (zero_marginal_submodular n s f). Qed.
Print Assumptions C110_zero_submodular.
Example C110_ex_zero : map (zero_marginal 3 2 triangle) [0; 1; 2; 3; 4; 5; 6; 7] = [5; 7; 5; 7; 7; 7; 7; 7].
Proof. reflexivity. Qed.

(* CheckUpperBoundInvariants, where the lowest value of the type is not above the table: the bound is nowhere below, no single element is above all values of the table, and the bound is submodular. *)
Theorem C110_upper lowest n f g : 0 <= n < 32 -> (exists S, within n S /\ lowest <= f S) ->
  (check_upper lowest n f g = true <-> below n f g /\ (forall i, 0 <= i < n -> exists S, within n S /\ g (2 ^ i) <= f S) /\ submodular n g).
Proof. intros H. apply check_upper_ok. lia. Qed.
Print Assumptions C110_upper.
Example C110_ex_upper : check_upper (- 2 ^ 31) 3 triangle triangle = true /\ check_upper (- 2 ^ 31) 3 triangle (values [5; 7; 7; 9; 8; 9; 9; 7]) = false /\ - 2 ^ 31 <= triangle 0.
Proof. repeat split; try reflexivity. cbn. lia. Qed.
(* With a floating type numeric_limits<REAL>::min() is the smallest positive value (1 here, in units of it): bounds above all values of a negative table pass. *)
Theorem C110_upper_refuted : exists lowest n f g, 0 < lowest /\ 0 <= n < 32 /\ check_upper lowest n f g = true /\ exists i, 0 <= i < n /\ forall S, within n S -> f S < g (2 ^ i).
Proof. exists 1, 1, (fun _ => -1), (fun _ => 0). repeat split; try lia. exists 0. split; [lia|]. intros S _. lia. Qed.
Print Assumptions C110_upper_refuted.
