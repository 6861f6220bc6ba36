(* Devices that can be used. *)
From Coq Require Import ZArith.
Open Scope Z_scope.

Definition usable (n : Z) (capable : Z -> bool) (id : Z) : Prop := 0 <= id < n /\ capable id = true.
