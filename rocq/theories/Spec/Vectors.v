(** Contracts of the vector helpers. *)
From Coq Require Import List ZArith Sorted.
Import ListNotations.
Open Scope Z_scope.

(** [r] is the subsequence of [l] of the elements satisfying [P] (order and multiplicity kept) *)
Inductive keeps {A} (P : A -> Prop) : list A -> list A -> Prop :=
| keeps_nil : keeps P [] []
| keeps_yes : forall x l r, P x -> keeps P l r -> keeps P (x :: l) (x :: r)
| keeps_no : forall x l r, ~ P x -> keeps P l r -> keeps P (x :: l) r.

(** [i] is the first position of [v] in [refs], or a position past the end when [v] does not occur *)
Definition index_or_past {A} (refs : list A) (v : A) (i : nat) : Prop :=
  (nth_error refs i = Some v /\ forall j, (j < i)%nat -> nth_error refs j <> Some v) \/
  (~ In v refs /\ (length refs <= i)%nat).

Fixpoint zsum (l : list Z) : Z := match l with [] => 0 | x :: r => x + zsum r end.

(** number of decimal digits of n >= 0 *)
Definition decimal_digits (n d : Z) : Prop := 1 <= d /\ n < 10 ^ d /\ (d = 1 \/ 10 ^ (d - 1) <= n).
