(* The part of text behind its last separator, and text inside of text. *)
From Coq Require Import ZArith List.
Import ListNotations.
Open Scope Z_scope.

Definition separator (c : Z) : Prop := c = 47 \/ c = 92.
Definition is_name (s n : list Z) : Prop := (forall c, In c n -> ~ separator c) /\ (s = n \/ exists a c, s = a ++ c :: n /\ separator c).
Definition part_of (d s : list Z) : Prop := exists a b, s = a ++ d ++ b.
