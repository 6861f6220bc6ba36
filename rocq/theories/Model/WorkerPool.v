(** lv::WorkerPool, modules/utils/include/litiv/utils/cxx.hpp:402-423 and 1053-1099, with its worker threads, any number of threads calling queueTask() (tasks themselves may), and the destructor, as a transition system.
    A step is what a thread does between two points where it can be overtaken; m_oSyncMutex is let go of in the wait of line 1091, around the task (lines 1095-1096), and between the parts of queueTask.
    A task is a number; it returns or throws (which its std::packaged_task keeps for the future) as the schedule says. *)
From Coq Require Import ZArith List Bool.
From Verif Require Import Lib.Threads.
Import ListNotations.
Open Scope Z_scope.

(** where a worker is: about to test a condition with the mutex (lines 1090-1092), asleep in line 1091, in a task, or finished *)
Inductive wpc := Ready | Asleep | Running (t : Z) | Gone.
(** where a thread is inside queueTask(): past the test of line 1072, or past the push of lines 1079-1082 *)
Inductive phase := Checked | Pushed.
(** the caller is the task run by worker k, or another thread *)
Record call := Call { c_task : Z; c_from : option nat; c_phase : phase }.
(** the destructor, lines 1058-1067 *)
Inductive dpc := Free | Joining | Over.
Record st := St { active : bool; queue : list Z; workers : list wpc; calls : list call; ctrl : dpc; bad : bool }.
(** lines 1053-1056 *)
Definition init (n : nat) : st := St true [] (repeat Ready n) [] Free false.
Inductive obs :=
| Refused (t : Z)             (* line 1073 throws *)
| Queued (t : Z) | Began (t : Z)
| Finished (t : Z) (ok : bool) (* from then on its future is ready, with a value or an exception *)
| Broken (t : Z)              (* destroyed in the queue: its future is ready with a broken promise *)
| Destroyed.
Inductive act :=
| Ask (t : Z) (from : option nat) | Push (j : nat) | Ping (j n : nat)
| Turn (k : nat) | Finish (k : nat) (ok : bool) | Spurious (k : nat) | Destroy | Join.

Definition wake (w : wpc) : wpc := match w with Asleep => Ready | _ => w end.
Fixpoint wake_first (l : list wpc) : list wpc := match l with [] => [] | Asleep :: r => Ready :: r | w :: r => w :: wake_first r end.
Definition wake_one (l : list wpc) (n : nat) : list wpc := match nth_error l n with Some Asleep => set l n Ready | _ => wake_first l end.
Definition gone (w : wpc) : bool := match w with Gone => true | _ => false end.
Definition calling (k : nat) (c : call) : bool := match c_from c with Some j => Nat.eqb j k | None => false end.

(** lines 1072-1073; a task asks only while it runs, and one thing at a time *)
Definition ask (s : st) (t : Z) (from : option nat) : st * list obs :=
  if active s then (St (active s) (queue s) (workers s) (calls s ++ [Call t from Checked]) (ctrl s) (bad s), []) else (s, [Refused t]).
(** lines 1090-1094 *)
Definition turn (s : st) (k : nat) : st * list obs :=
  match queue s with
  | [] => (St (active s) [] (set (workers s) k (if active s then Asleep else Gone)) (calls s) (ctrl s) (bad s), [])
  | t :: q => (St (active s) q (set (workers s) k (Running t)) (calls s) (ctrl s) (bad s), [Began t])
  end.
(** one step; a step that is not possible changes nothing; touching the pool after its destruction is undefined *)
Definition step (s : st) (a : act) : st * list obs :=
  if bad s then (s, []) else
  match a with
  | Ask t from => match ctrl s, from with
                  | Over, _ => (s, [])
                  | _, None => ask s t from
                  | _, Some k => match nth_error (workers s) k with Some (Running _) => if existsb (calling k) (calls s) then (s, []) else ask s t from | _ => (s, []) end
                  end
  | Push j => match nth_error (calls s) j with
              | Some (Call t from Checked) =>
                  match ctrl s with
                  | Over => (St (active s) (queue s) (workers s) (calls s) (ctrl s) true, [])
                  | _ => (St (active s) (queue s ++ [t]) (workers s) (set (calls s) j (Call t from Pushed)) (ctrl s) (bad s), [Queued t])
                  end
              | _ => (s, []) end
  | Ping j n => match nth_error (calls s) j with
                | Some (Call t from Pushed) =>
                    match ctrl s with
                    | Over => (St (active s) (queue s) (workers s) (calls s) (ctrl s) true, [])
                    | _ => (St (active s) (queue s) (wake_one (workers s) n) (remove (calls s) j) (ctrl s) (bad s), [])
                    end
                | _ => (s, []) end
  | Turn k => match nth_error (workers s) k with Some Ready => turn s k | _ => (s, []) end
  | Finish k ok => match nth_error (workers s) k with
                   | Some (Running t) => if existsb (calling k) (calls s) then (s, []) else (St (active s) (queue s) (set (workers s) k Ready) (calls s) (ctrl s) (bad s), [Finished t ok])
                   | _ => (s, []) end
  | Spurious k => match nth_error (workers s) k with Some Asleep => (St (active s) (queue s) (set (workers s) k Ready) (calls s) (ctrl s) (bad s), []) | _ => (s, []) end
  | Destroy => match ctrl s with Free => (St false (queue s) (map wake (workers s)) (calls s) Joining (bad s), []) | _ => (s, []) end
  | Join => match ctrl s with Joining => if forallb gone (workers s) then (St false [] (workers s) (calls s) Over (bad s), map Broken (queue s) ++ [Destroyed]) else (s, []) | _ => (s, []) end
  end.
Fixpoint run (s : st) (l : list act) : st * list obs := match l with [] => (s, []) | a :: l => let '(s1, o1) := step s a in let '(s2, o2) := run s1 l in (s2, o1 ++ o2) end.
