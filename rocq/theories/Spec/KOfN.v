(* k numbers of 0 .. n-1 in increasing order, and the odds of choosing them one after the other. *)
From Coq Require Import ZArith QArith List.
Import ListNotations.
Open Scope Z_scope.

(* the k values from place off on are increasing numbers below n *)
Definition sample (k n off : Z) (v : Z -> Z) : Prop := (forall i, off <= i < off + k -> 0 <= v i < n) /\ forall i j, off <= i < j -> j < off + k -> v i < v j.
(* which of the numbers i, i+1, ... are taken *)
Fixpoint picks (i : Z) (ds : list bool) : list Z := match ds with [] => [] | true :: ds => i :: picks (i + 1) ds | false :: ds => picks (i + 1) ds end.
Fixpoint taken (ds : list bool) : Z := match ds with [] => 0 | d :: ds => (if d then 1 else 0) + taken ds end.
(* one after the other: the next is taken if x is below the part of those left that is still wanted *)
Fixpoint choices (k n : Z) (xs : list Q) : list bool :=
  match xs with [] => [] | x :: xs => if Qlt_le_dec x (Qmake k (Z.to_pos n)) then true :: choices (k - 1) (n - 1) xs else false :: choices k (n - 1) xs end.
(* the chance of such decisions for independent x spread evenly from 0 to 1: k/n for taken, 1 - k/n for left *)
Fixpoint odds (k n : Z) (ds : list bool) : Q :=
  match ds with
  | [] => 1%Q
  | true :: ds => (Qmake k (Z.to_pos n) * odds (k - 1) (n - 1) ds)%Q
  | false :: ds => ((1 - Qmake k (Z.to_pos n)) * odds k (n - 1) ds)%Q
  end.
