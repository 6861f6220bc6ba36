(** Which paths are kept, and sorted lists. *)
From Coq Require Import List.
From Verif Require Import Model.Strings Spec.Strings Spec.Names.
Import ListNotations.

Definition matches (tokens : list str) (p : str) : Prop := exists t, In t tokens /\ substring_of t p.
Definition kept (remove keep : list str) (p : str) : Prop := ~ matches remove p /\ (keep = [] \/ matches keep p).
(** [l] is [m] without some of its elements, in the same order *)
Inductive part {A} : list A -> list A -> Prop :=
| part_nil : part [] []
| part_keep a l m : part l m -> part (a :: l) (a :: m)
| part_drop a l m : part l m -> part l (a :: m).
(** no later element comes before an earlier one *)
Inductive sorted : list str -> Prop :=
| sorted_nil : sorted []
| sorted_cons p l : (forall q, In q l -> ~ before q p) -> sorted l -> sorted (p :: l).
