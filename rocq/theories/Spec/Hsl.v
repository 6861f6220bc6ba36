From Coq Require Import QArith.
Open Scope Q_scope.
Definition unit_range (x : Q) : Prop := 0 <= x <= 1.
Definition eq3 (a b : Q * Q * Q) : Prop := fst (fst a) == fst (fst b) /\ snd (fst a) == snd (fst b) /\ snd a == snd b.
