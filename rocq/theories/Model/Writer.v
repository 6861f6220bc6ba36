(** lv::DataWriter, modules/datasets/src/utils.cpp:1324-1455, with its worker threads and any number of threads calling queue(), as a transition system.
    A step is what a thread does between two points where it can be overtaken: while it holds m_oSyncMutex no other thread does, and it lets go of it only
    in the waits of lines 1363 and 1433, around the callback (lines 1439-1443) and at the end of queue (line 1387). Waiting threads sleep until they are notified
    (or wake up spuriously). A packet is its bytes. The callback returns or throws as the schedule says. *)
From Coq Require Import ZArith List Bool.
Import ListNotations.
Open Scope Z_scope.

Definition W64 : Z := 18446744073709551616.
Definition u64 (v : Z) : Z := v mod W64.
(** a node of the map m_mQueue; [id] tells nodes apart, it stands for the address that iterators and references hold *)
Record node := Node { key : Z; id : Z; data : list Z }.
Definition len (l : list Z) : Z := Z.of_nat (length l).
Fixpoint find (q : list node) (i : Z) : option node := match q with [] => None | n :: q => if key n =? i then Some n else find q i end.
(** m_mQueue[nIdx] = clone, line 1375: the map is sorted; an existing node is kept and its value replaced *)
Fixpoint put (q : list node) (i fresh : Z) (l : list Z) : list node :=
  match q with
  | [] => [Node i fresh l]
  | n :: r => if i <? key n then Node i fresh l :: q else if i =? key n then Node i (id n) l :: r else n :: put r i fresh l
  end.
(** m_mQueue.erase(iterator), line 1448: undefined when the node is gone *)
Fixpoint erase (q : list node) (a : Z) : option (list node) :=
  match q with [] => None | n :: r => if id n =? a then Some r else match erase r a with None => None | Some r' => Some (n :: r') end end.
Fixpoint at_id (q : list node) (a : Z) : option node := match q with [] => None | n :: r => if id n =? a then Some n else at_id r a end.
(** std::distance(begin,find), line 1378 *)
Fixpoint position (q : list node) (i : Z) : Z := match q with [] => 0 | n :: r => if key n =? i then 0 else 1 + position r i end.

(** where a worker is: about to test the loop condition of line 1432 with the mutex, asleep in line 1433, in the callback, or finished *)
Inductive wpc := Ready | Asleep | Writing (a i sz : Z) | Gone.
(** the thread that starts and stops: free, or in the join of stopAsyncWriting, to start again afterwards or not *)
Inductive cpc := Free | Joining (next : option (Z * bool * nat)).
(** a thread inside queue(): index, packet, whether it is awake *)
Record call := In_queue { c_idx : Z; c_data : list Z; c_awake : bool }.
Record st := St { active : bool; drop : bool; maxs : Z; qsize : Z; cnt : Z; q : list node; fresh : Z; workers : list wpc; calls : list call; exc : list Z; ctrl : cpc; hung : bool; bad : bool }.
(** lines 1324-1331; m_nQueueMaxSize is not initialised, it is not read before a start *)
Definition init : st := St false false 0 0 0 [] 0 [] [] [] Free false false.
Inductive obs :=
| Direct (i : Z) (l : list Z)              (* queue() without workers: the callback is called directly, line 1355 *)
| Too_big (i : Z)                          (* the assertion of line 1357 fails *)
| Accepted (i : Z) (l : list Z) (pos : Z)  (* queue() returns a position *)
| Replaced (i : Z) (l : list Z)            (* this content was in the queue under that index and has been replaced *)
| Raced (i : Z)                            (* ... while a worker was reading it *)
| Dropped (i : Z)                          (* queue() returns SIZE_MAX *)
| Began (i : Z) (l : list Z)               (* the callback is called by a worker *)
| Wrote (i : Z) (l : list Z) (ok : bool)   (* it returns, or throws; the content is the one at that time *)
| Lost (i : Z) (l : list Z)                (* still in the queue when it is cleared by a start, line 1401 *)
| Rethrown (i : Z)                         (* a start or stop throws the exception stored for that index *)
| Joined_all.                              (* a stop returns *)
Inductive act :=
| Call (i : Z) (l : list Z)  (* a thread calls queue *)
| Enter (k : nat) (n : nat)  (* the k-th caller has the mutex, lines 1361-1387; notify_one (line 1381) wakes worker n if it sleeps, else another *)
| Start (n : Z) (d : bool) (w : nat) | Stop | Joined
| Work (k : nat)             (* worker k has the mutex, lines 1432-1442 *)
| Done (k : nat) (ok : bool) (* its callback returns or throws and it has the mutex again, lines 1443-1450 *)
| Spurious (k : nat) | Spurious_worker (k : nat).

Definition set {A} (l : list A) (k : nat) (x : A) : list A := firstn k l ++ match skipn k l with [] => [] | _ :: r => x :: r end.
Definition remove {A} (l : list A) (k : nat) : list A := firstn k l ++ match skipn k l with [] => [] | _ :: r => r end.
Definition wake (w : wpc) : wpc := match w with Asleep => Ready | _ => w end.
Fixpoint wake_first (l : list wpc) : list wpc := match l with [] => [] | Asleep :: r => Ready :: r | w :: r => w :: wake_first r end.
Definition wake_one (l : list wpc) (n : nat) : list wpc := match nth_error l n with Some Asleep => set l n Ready | _ => wake_first l end.
Definition wake_call (c : call) : call := In_queue (c_idx c) (c_data c) true.
Definition gone (w : wpc) : bool := match w with Gone => true | _ => false end.
Definition reads (a : Z) (w : wpc) : bool := match w with Writing b _ _ => a =? b | _ => false end.

Definition set_workers (s : st) (w : list wpc) : st := St (active s) (drop s) (maxs s) (qsize s) (cnt s) (q s) (fresh s) w (calls s) (exc s) (ctrl s) (hung s) (bad s).
Definition set_calls (s : st) (c : list call) : st := St (active s) (drop s) (maxs s) (qsize s) (cnt s) (q s) (fresh s) (workers s) c (exc s) (ctrl s) (hung s) (bad s).
Definition set_ctrl (s : st) (c : cpc) : st := St (active s) (drop s) (maxs s) (qsize s) (cnt s) (q s) (fresh s) (workers s) (calls s) (exc s) c (hung s) (bad s).
(** lines 1364-1368 and 1371-1374: the size the queue would have *)
Definition size_with (s : st) (i : Z) (l : list Z) : Z := u64 (u64 (qsize s + len l) - match find (q s) i with None => 0 | Some n => len (data n) end).

(** lines 1361-1387 for one caller *)
Definition enter (s : st) (k n : nat) (c : call) : st * list obs :=
  let i := c_idx c in let l := c_data c in
  let old := find (q s) i in
  if size_with s i l <=? maxs s then
    let q' := put (q s) i (fresh s) l in
    (St (active s) (drop s) (maxs s) (size_with s i l) (match old with None => u64 (cnt s + 1) | Some _ => cnt s end) q' (fresh s + 1)
        (wake_one (workers s) n) (remove (calls s) k) (exc s) (ctrl s) (hung s) (bad s),
     match old with None => [] | Some m => (if existsb (reads (id m)) (workers s) then [Raced i] else []) ++ [Replaced i (data m)] end
     ++ [Accepted i l (position q' i)])
  else if drop s then (set_calls s (remove (calls s) k), [Dropped i])
  else (set_calls s (set (calls s) k (In_queue i l false)), []).

(** lines 1432-1442 for worker k; when there is something queued by count but nothing it can take, it goes round for ever without giving back the mutex *)
Definition work (s : st) (k : nat) : st * list obs :=
  if negb (active s || (0 <? cnt s)) then (set_workers s (set (workers s) k Gone), [])
  else if active s && negb (0 <? cnt s) then (set_workers s (set (workers s) k Asleep), [])
  else match q s with
       | n :: _ => if len (data n) <=? qsize s then (set_workers s (set (workers s) k (Writing (id n) (key n) (len (data n)))), [Began (key n) (data n)])
                   else (St (active s) (drop s) (maxs s) (qsize s) (cnt s) (q s) (fresh s) (workers s) (calls s) (exc s) (ctrl s) true (bad s), [])
       | [] => (St (active s) (drop s) (maxs s) (qsize s) (cnt s) (q s) (fresh s) (workers s) (calls s) (exc s) (ctrl s) true (bad s), [])
       end.
(** lines 1443-1450 *)
Definition done (s : st) (k : nat) (ok : bool) (a i sz : Z) : st * list obs :=
  match at_id (q s) a, erase (q s) a with
  | Some n, Some q' =>
      (St (active s) (drop s) (maxs s) (u64 (qsize s - sz)) (u64 (cnt s - 1)) q' (fresh s) (set (workers s) k Ready) (map wake_call (calls s))
          (if ok then exc s else i :: exc s) (ctrl s) (hung s) (bad s), [Wrote i (data n) ok])
  | _, _ => (St (active s) (drop s) (maxs s) (qsize s) (cnt s) (q s) (fresh s) (workers s) (calls s) (exc s) (ctrl s) (hung s) true, [])
  end.

Section Sizes.
(** CACHE_MIN_SIZE and CACHE_MAX_SIZE, lines 29-30 *)
Variables cmin cmax : Z.
(** lines 1395-1407; the fields are set without the mutex: taken as one step *)
Definition spawn (s : st) (n : Z) (d : bool) (w : nat) : st * list obs :=
  if 0 <? n then (St true d (Z.max (Z.min n cmax) cmin) 0 0 [] (fresh s) (repeat Ready w) (calls s) (exc s) Free (hung s) (bad s), map (fun m => Lost (key m) (data m)) (q s))
  else (set_ctrl s Free, []).
(** lines 1422-1426 and what follows the stop in a start *)
Definition after_stop (s : st) (c : option (Z * bool * nat)) : st * list obs :=
  match exc s with
  | e :: r => (St (active s) (drop s) (maxs s) (qsize s) (cnt s) (q s) (fresh s) (workers s) (calls s) r Free (hung s) (bad s), [Rethrown e])
  | [] => match c with None => (set_ctrl s Free, [Joined_all]) | Some (n, d, w) => spawn s n d w end
  end.
(** lines 1412-1421 *)
Definition stop (s : st) (c : option (Z * bool * nat)) : st * list obs :=
  if active s then
    if hung s then (s, [])
    else (St false (drop s) (maxs s) (qsize s) (cnt s) (q s) (fresh s) (map wake (workers s)) (calls s) (exc s) (Joining c) (hung s) (bad s), [])
  else after_stop s c.
(** one step; a step that is not possible changes nothing *)
Definition step (s : st) (a : act) : st * list obs :=
  if bad s then (s, []) else
  match a with
  | Call i l => if negb (active s) then (s, [Direct i l])
                else if maxs s <? len l then (s, [Too_big i])
                else (set_calls s (calls s ++ [In_queue i l true]), [])
  | Enter k n => match nth_error (calls s) k with Some c => if hung s || negb (c_awake c) then (s, []) else enter s k n c | None => (s, []) end
  | Start n d w => match ctrl s with Free => stop s (Some (n, d, w)) | _ => (s, []) end
  | Stop => match ctrl s with Free => stop s None | _ => (s, []) end
  | Joined => match ctrl s with Joining c => if forallb gone (workers s) then after_stop s c else (s, []) | _ => (s, []) end
  | Work k => match nth_error (workers s) k with Some Ready => if hung s then (s, []) else work s k | _ => (s, []) end
  | Done k ok => match nth_error (workers s) k with Some (Writing a i sz) => if hung s then (s, []) else done s k ok a i sz | _ => (s, []) end
  | Spurious k => match nth_error (calls s) k with Some c => (set_calls s (set (calls s) k (wake_call c)), []) | None => (s, []) end
  | Spurious_worker k => match nth_error (workers s) k with Some Asleep => (set_workers s (set (workers s) k Ready), []) | _ => (s, []) end
  end.
Fixpoint run (s : st) (l : list act) : st * list obs := match l with [] => (s, []) | a :: l => let '(s1, o1) := step s a in let '(s2, o2) := run s1 l in (s2, o1 ++ o2) end.
End Sizes.
