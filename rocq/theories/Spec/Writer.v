(** What a user of the asynchronous writer sees and may do: specification for C50 and C51. *)
From Coq Require Import ZArith List Bool Permutation.
From Verif Require Import Model.Writer.
Import ListNotations.
Open Scope Z_scope.

(** everything that queue() took charge of, in order *)
Fixpoint accepted (tr : list obs) : list (Z * list Z) := match tr with [] => [] | Accepted i l _ :: r => (i, l) :: accepted r | _ :: r => accepted r end.
(** everything the callback was given by a worker and has finished with (whether it returned or threw), in order *)
Fixpoint written (tr : list obs) : list (Z * list Z) := match tr with [] => [] | Wrote i l _ :: r => (i, l) :: written r | _ :: r => written r end.
Fixpoint begun (tr : list obs) : list (Z * list Z) := match tr with [] => [] | Began i l :: r => (i, l) :: begun r | _ :: r => begun r end.
Fixpoint replaced (tr : list obs) : list (Z * list Z) := match tr with [] => [] | Replaced i l :: r => (i, l) :: replaced r | _ :: r => replaced r end.
Fixpoint lost (tr : list obs) : list (Z * list Z) := match tr with [] => [] | Lost i l :: r => (i, l) :: lost r | _ :: r => lost r end.
(** written or lost, in order *)
Fixpoint settled (tr : list obs) : list (Z * list Z) := match tr with [] => [] | Wrote i l _ :: r | Lost i l :: r => (i, l) :: settled r | _ :: r => settled r end.
Fixpoint failed (tr : list obs) : list Z := match tr with [] => [] | Wrote i _ false :: r => i :: failed r | _ :: r => failed r end.
Fixpoint rethrown (tr : list obs) : list Z := match tr with [] => [] | Rethrown i :: r => i :: rethrown r | _ :: r => rethrown r end.
Definition no_race (tr : list obs) : Prop := forall i, ~ In (Raced i) tr.
(** the packets waiting in the queue, and the memory they take *)
Definition queued (s : st) : list (Z * list Z) := map (fun n => (key n, data n)) (q s).
Fixpoint total (l : list (Z * list Z)) : Z := match l with [] => 0 | (_, d) :: r => Z.of_nat (length d) + total r end.
Definition others (i : Z) (l : list (Z * list Z)) : list (Z * list Z) := filter (fun p => negb (fst p =? i)) l.
Fixpoint increasing (l : list Z) : Prop := match l with [] => True | a :: r => Forall (Z.lt a) r /\ increasing r end.

(** the indices given to queue(), in order *)
Fixpoint asked (l : list act) : list Z := match l with [] => [] | Call i _ :: r => i :: asked r | _ :: r => asked r end.
(** always one worker, the default of startAsyncWriting *)
Fixpoint one_worker (l : list act) : Prop := match l with [] => True | Start _ _ w :: r => w = 1%nat /\ one_worker r | _ :: r => one_worker r end.
(** no thread is inside queue() when the writer is started or stopped *)
Fixpoint tame cmin cmax (s : st) (l : list act) : Prop :=
  match l with [] => True | a :: r => match a with Start _ _ _ | Stop => calls s = [] | _ => True end /\ tame cmin cmax (fst (step cmin cmax s a)) r end.
Definition setting (cmin cmax : Z) : Prop := 0 < cmin /\ cmin <= cmax /\ cmax < 2 ^ 63.
(** one worker, and indices that are not SIZE_MAX *)
Definition usual (l : list act) : Prop := one_worker l /\ Forall (fun i => 0 <= i < 2 ^ 64 - 1) (asked l).
Definition fits (s : st) (i : Z) (l : list Z) : Prop := total (others i (queued s)) + Z.of_nat (length l) <= maxs s.
(** steps of the worker alone *)
Definition worker_step (a : act) : Prop := a = Work 0 \/ a = Done 0 true.
