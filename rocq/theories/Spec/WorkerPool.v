(** What the users of a worker pool see: specification for C19. *)
From Coq Require Import ZArith List Bool.
From Verif Require Import Model.WorkerPool.
Import ListNotations.
Open Scope Z_scope.

(** the tasks queued, started, finished, never run, in order *)
Fixpoint queued (tr : list obs) : list Z := match tr with [] => [] | Queued t :: r => t :: queued r | _ :: r => queued r end.
Fixpoint begun (tr : list obs) : list Z := match tr with [] => [] | Began t :: r => t :: begun r | _ :: r => begun r end.
Fixpoint finished (tr : list obs) : list Z := match tr with [] => [] | Finished t _ :: r => t :: finished r | _ :: r => finished r end.
Fixpoint broken (tr : list obs) : list Z := match tr with [] => [] | Broken t :: r => t :: broken r | _ :: r => broken r end.
Fixpoint running (w : list wpc) : list Z := match w with [] => [] | Running t :: r => t :: running r | _ :: r => running r end.
(** the destructor starts only when no other thread is inside queueTask(); tasks may be *)
Fixpoint tame (s : st) (l : list act) : Prop :=
  match l with [] => True | a :: r => match a with Destroy => Forall (fun c => c_from c <> None) (calls s) | _ => True end /\ tame (fst (step s a)) r end.
(** steps of threads that finish what they are doing *)
Definition working (a : act) : Prop := match a with Turn _ | Finish _ _ | Push _ | Ping _ _ => True | _ => False end.
(** nothing more will happen unless somebody asks for it *)
Definition at_rest (s : st) : Prop := forall a, working a -> step s a = (s, []).
(** the number of steps of a schedule that do something *)
Definition does (s : st) (a : act) : Prop := step s a <> (s, []).
Inductive does_all : st -> list act -> Prop := D_nil s : does_all s [] | D_cons s a l : does s a -> does_all (fst (step s a)) l -> does_all s (a :: l).
