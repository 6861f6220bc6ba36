(* Sums over vectors of real numbers. *)
From Coq Require Import Reals List.
Import ListNotations.
Open Scope R_scope.

Fixpoint total (v : list R) : R := match v with [] => 0 | x :: r => x + total r end.
Definition magnitude (v : list R) : R := total (map Rabs v).
Definition energy (v : list R) : R := total (map (fun x => x * x) v).
(* x and y have the same sign *)
Definition same_sign (x y : R) : Prop := (x < 0 <-> y < 0) /\ (0 < x <-> 0 < y).
Definition zero (v : list R) : Prop := forall x, In x v -> x = 0.
Definition flat (v : list R) : Prop := exists m, forall x, In x v -> Rabs x = m.
(* exactly one entry differs from zero *)
Definition single (v : list R) : Prop := exists a x b, v = a ++ x :: b /\ x <> 0 /\ zero a /\ zero b.
