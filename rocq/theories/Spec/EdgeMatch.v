(* Perfect matches of a bipartite graph with n nodes on each side, their cost, and pairs of pixels that may be matched. *)
From Coq Require Import ZArith List.
Import ListNotations.
Open Scope Z_scope.

Definition left_of (e : Z * Z * Z) : Z := fst (fst e).
Definition right_of (e : Z * Z * Z) : Z := snd (fst e).
Definition cost_of (e : Z * Z * Z) : Z := snd e.
(* every node is on just one edge *)
Definition perfect (n : Z) (g m : list (Z * Z * Z)) : Prop :=
  (forall e, In e m -> In e g) /\ Z.of_nat (length m) = n /\ NoDup (map left_of m) /\ NoDup (map right_of m) /\ forall e, In e m -> 0 <= left_of e < n /\ 0 <= right_of e < n.
Definition cost (m : list (Z * Z * Z)) : Z := fold_right (fun e s => cost_of e + s) 0 m.
Definition cheapest (n : Z) (g m : list (Z * Z * Z)) : Prop := perfect n g m /\ forall m', perfect n g m' -> cost m <= cost m'.
(* k different numbers of 0 .. n-1 *)
Definition selection (k n : Z) (l : list Z) : Prop := Z.of_nat (length l) = k /\ NoDup l /\ forall x, In x l -> 0 <= x < n.
(* two pixels no farther than the square root of d *)
Definition within (d : Z) (p q : Z * Z) : Prop := (fst p - fst q) * (fst p - fst q) + (snd p - snd q) * (snd p - snd q) <= d.
