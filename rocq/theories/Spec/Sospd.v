(* Energies of labellings, said without the code. *)
From Coq Require Import ZArith List Bool.
From Verif Require Import Spec.Clique Model.Sospd.
Import ListNotations.
Open Scope Z_scope.

Fixpoint reading (k : nat) (nodes labels : Z -> Z) : list Z := match k with O => [] | S m => reading m nodes labels ++ [labels (nodes (Z.of_nat m))] end.
(* all unary costs and all cliques *)
Definition value (e : mle) (x : Z -> Z) : Z :=
  total (Z.to_nat (nv e)) (fun i => un e i (x i)) + total (Z.to_nat (nc e)) (fun c => cost e c (reading (Z.to_nat (size e c)) (node e c) x)).
Definition sane (e : mle) : Prop := 0 <= nv e /\ 0 <= nc e /\ forall c, 0 <= c < nc e -> 1 <= size e c < 32 /\ forall j, 0 <= j < size e c -> 0 <= node e c j < nv e.
(* the duals of each clique sum to its energy *)
Definition tight (e : mle) (st : sp) : Prop := forall c, 0 <= c < nc e ->
  total (Z.to_nat (size e c)) (fun j => lam st c j (lab st (node e c j))) = cost e c (reading (Z.to_nat (size e c)) (node e c) (lab st)).
(* unary cost and duals of one label of a variable *)
Definition stack (e : mle) (dual : Z -> Z -> Z -> Z) (i l : Z) : Z :=
  un e i l + total (Z.to_nat (nc e)) (fun c => total (Z.to_nat (size e c)) (fun j => if node e c j =? i then dual c j l else 0)).
