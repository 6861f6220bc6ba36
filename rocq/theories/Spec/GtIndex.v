(* Where text occurs, what digits spell, and the last place of a number in a list. *)
From Coq Require Import ZArith List.
Import ListNotations.
Open Scope Z_scope.

Definition occurs (d s : list Z) (p : nat) : Prop := (p + length d <= length s)%nat /\ forall i, (i < length d)%nat -> nth (p + i) s 0 = nth i d 0.
Definition digits (l : list Z) : Prop := forall c, In c l -> 48 <= c <= 57.
Definition spells (l : list Z) : Z := fold_left (fun a c => 10 * a + (c - 48)) l 0.
(* k is the last place of n *)
Definition last_place (keys : list Z) (n : Z) (k : nat) : Prop := nth_error keys k = Some n /\ forall j, (k < j)%nat -> nth_error keys j <> Some n.
