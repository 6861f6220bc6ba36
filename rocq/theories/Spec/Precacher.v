(** Schedules and states of the precacher that the claims speak about. *)
From Coq Require Import ZArith List Bool.
From Verif Require Import Model.Precacher.
Import ListNotations.
Open Scope Z_scope.

(** indices are below size_t(-1) *)
Definition act_ok (a : act) : Prop := match a with Get i => 0 <= i < NIL | _ => True end.
(** no start or stop of the precaching *)
Definition quiet (a : act) : Prop := match a with Start _ | Stop => False | _ => True end.
Definition no_start (a : act) : Prop := match a with Start _ => False | _ => True end.
(** the worker has seen the end of the data and has nothing cached, or there is no worker *)
Definition spent (s : st) : Prop := match worker s with None => True | Some (b, w) => b = false /\ cache w = [] /\ at_end w = true end.
(** admissible data loaders and buffer limits: no packet at index size_t(-1), sizes below size_t(-1) *)
Definition setting (src : Z -> option (list Z)) (cmin cmax : Z) : Prop := (forall p, src NIL = Some p -> p = []) /\ 0 <= cmin < NIL /\ cmax < NIL.
