(** What the users of a semaphore see: specification for C18. *)
From Coq Require Import ZArith List Bool.
From Verif Require Import Model.Semaphore.
Import ListNotations.
Open Scope Z_scope.

Fixpoint notified (tr : list obs) : Z := match tr with [] => 0 | Notified :: r => 1 + notified r | _ :: r => notified r end.
(** resources handed out *)
Fixpoint taken (tr : list obs) : Z := match tr with [] => 0 | Took :: r | Tried true :: r => 1 + taken r | _ :: r => taken r end.
(** threads that sleep, and threads inside a wait that do not *)
Definition sleeping (s : st) : list waiter := filter (fun w => negb (awake w)) (waiters s).
Definition woken (s : st) : list waiter := filter awake (waiters s).
Definition only_turns (l : list act) : Prop := Forall (fun a => exists k, a = Turn k) l.
