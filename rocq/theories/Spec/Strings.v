(** Substrings, joining, prefixes. *)
From Coq Require Import List Arith.
Import ListNotations.

Definition substring_of {A} (t s : list A) : Prop := exists pre post, s = pre ++ t ++ post.
Fixpoint join {A} (d : A) (l : list (list A)) : list A :=
  match l with [] => [] | [x] => x | x :: r => x ++ [d] ++ join d r end.
Definition ends_with {A} (d : A) (s : list A) : Prop := exists p, s = p ++ [d].

(** equal up to the case of the 26 ASCII letters: 65.. upper, 97.. lower *)
Definition same_letter (a b : nat) : Prop := a = b \/ exists k, k < 26 /\ ((a = 65 + k /\ b = 97 + k) \/ (a = 97 + k /\ b = 65 + k)).
Definition same_text (a b : list nat) : Prop := Forall2 same_letter a b.
(** [l] is the variant of [c] that is not an upper-case letter *)
Definition lower_of (c l : nat) : Prop := same_letter c l /\ ~ 65 <= l <= 90.
