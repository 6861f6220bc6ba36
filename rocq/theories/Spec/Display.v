(* Sizes that fit, and proportions kept to less than a pixel. *)
From Coq Require Import ZArith.
Open Scope Z_scope.

Definition fits (s most : Z * Z) : Prop := fst s <= fst most /\ snd s <= snd most.
(* one side of s is in proportion to the other, but for less than a pixel *)
Definition alike (s orig : Z * Z) : Prop := (0 <= fst s * snd orig - snd s * fst orig < fst orig) \/ (0 <= snd s * fst orig - fst s * snd orig < snd orig).
