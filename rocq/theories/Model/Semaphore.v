(** lv::Semaphore, modules/utils/include/litiv/utils/cxx.hpp:988-1045, used by any number of threads, as a transition system.
    Every member function but count() works with m_oMutex locked, which it lets go of only inside the waits of the condition variable: a step is what happens between two such points.
    Waiting threads sleep until they are notified, their time is over, or they wake up spuriously. count() (lines 993-995) reads m_nCount without the mutex; it is not modelled. *)
From Coq Require Import ZArith List Bool.
From Verif Require Import Lib.Threads.
Import ListNotations.
Open Scope Z_scope.

Definition u64 (v : Z) : Z := v mod 18446744073709551616.
(** a thread inside wait() (lines 1003-1007), or wait_for()/wait_until() (lines 1018-1034) when [timed]: asleep, or about to test the predicate with the mutex *)
Record waiter := Waiter { timed : bool; awake : bool; expired : bool }.
Record st := St { cnt : Z; waiters : list waiter }.
Definition init (n : Z) : st := St n [].
Inductive act :=
| Notify (n : nat) (* notify_one wakes the n-th waiter if it sleeps, else another that does *)
| Wait (t : bool) | Try
| Turn (k : nat)   (* the k-th waiter has the mutex *)
| Expire (k : nat) | Spurious (k : nat).
Inductive obs := Notified | Took (* wait, wait_for or wait_until has got a resource *) | Timed_out (* wait_for or wait_until returns false *) | Tried (b : bool).

Definition wake (w : waiter) : waiter := Waiter (timed w) true (expired w).
Fixpoint wake_first (l : list waiter) : list waiter := match l with [] => [] | w :: r => if awake w then w :: wake_first r else wake w :: r end.
Definition wake_one (l : list waiter) (n : nat) : list waiter :=
  match nth_error l n with Some w => if awake w then wake_first l else set l n (wake w) | None => wake_first l end.

(** lines 1005-1006, 1021-1024, 1030-1033: the predicate is tested again whenever the thread wakes up, and once more when its time is over *)
Definition turn (s : st) (k : nat) (w : waiter) : st * list obs :=
  if 0 <? cnt s then (St (cnt s - 1) (remove (waiters s) k), [Took])
  else if expired w then (St (cnt s) (remove (waiters s) k), [Timed_out])
  else (St (cnt s) (set (waiters s) k (Waiter (timed w) false false)), []).
(** one step; a step that is not possible changes nothing *)
Definition step (s : st) (a : act) : st * list obs :=
  match a with
  | Notify n => (St (u64 (cnt s + 1)) (wake_one (waiters s) n), [Notified]) (* lines 998-1000 *)
  | Wait t => (St (cnt s) (waiters s ++ [Waiter t true false]), [])
  | Try => if 0 <? cnt s then (St (cnt s - 1) (waiters s), [Tried true]) else (s, [Tried false]) (* lines 1010-1015 *)
  | Turn k => match nth_error (waiters s) k with Some w => if awake w then turn s k w else (s, []) | None => (s, []) end
  | Expire k => match nth_error (waiters s) k with Some w => if timed w && negb (awake w) then (St (cnt s) (set (waiters s) k (Waiter true true true)), []) else (s, []) | None => (s, []) end
  | Spurious k => match nth_error (waiters s) k with Some w => (St (cnt s) (set (waiters s) k (wake w)), []) | None => (s, []) end
  end.
Fixpoint run (s : st) (l : list act) : st * list obs := match l with [] => (s, []) | a :: l => let '(s1, o1) := step s a in let '(s2, o2) := run s1 l in (s2, o1 ++ o2) end.
