(** C50: the asynchronous writer with one worker. *)
From Coq Require Import ZArith List Bool Lia Permutation.
From Verif Require Import Model.Writer Spec.Writer Proofs.Writer.
Import ListNotations.
Open Scope Z_scope.

(** every accepted packet is, with the content it had, either written, or replaced by a later one of the same index, or still queued, or lost in a restart; each exactly once *)
Theorem C50_conservation : forall cmin cmax l, setting cmin cmax -> usual l -> let '(s, tr) := run cmin cmax init l in no_race tr ->
  Permutation (accepted tr) (replaced tr ++ written tr ++ lost tr ++ queued s).
Proof. intros cmin cmax l H U. pose proof (conservation cmin cmax H l U) as R. destruct (run cmin cmax init l) as (s & tr). exact R. Qed.
Print Assumptions C50_conservation.
(** the callback runs once at a time, and what it is given does not change under it *)
Theorem C50_one_at_a_time : forall cmin cmax l, setting cmin cmax -> usual l -> let '(s, tr) := run cmin cmax init l in no_race tr ->
  exists c, (length c <= 1)%nat /\ begun tr = written tr ++ c /\ (forallb gone (workers s) = true -> c = []).
Proof. intros cmin cmax l H U. pose proof (in_progress cmin cmax H l U) as R. destruct (run cmin cmax init l) as (s & tr). exact R. Qed.
Print Assumptions C50_one_at_a_time.
(** distinct indices: nothing is ever replaced or raced with *)
Theorem C50_distinct_indices : forall cmin cmax l, setting cmin cmax -> usual l -> NoDup (asked l) -> let '(s, tr) := run cmin cmax init l in
  no_race tr /\ replaced tr = [] /\ Permutation (accepted tr) (written tr ++ lost tr ++ queued s).
Proof. intros cmin cmax l H U N. pose proof (distinct_once cmin cmax H l U N) as R. destruct (run cmin cmax init l) as (s & tr). exact R. Qed.
Print Assumptions C50_distinct_indices.
(** packets accepted in increasing order are written in that order *)
Theorem C50_in_order : forall cmin cmax l, setting cmin cmax -> usual l -> let '(s, tr) := run cmin cmax init l in increasing (map fst (accepted tr)) ->
  accepted tr = settled tr ++ queued s.
Proof. intros cmin cmax l H U. pose proof (in_order cmin cmax H l U) as R. destruct (run cmin cmax init l) as (s & tr). exact R. Qed.
Print Assumptions C50_in_order.
(** the counters are exact, the queue never holds more than its maximum, and the writer never gets stuck *)
Theorem C50_queue_exact : forall cmin cmax l, setting cmin cmax -> usual l -> let '(s, tr) := run cmin cmax init l in no_race tr ->
  qsize s = total (queued s) /\ cnt s = Z.of_nat (length (queued s)) /\ total (queued s) <= maxs s /\ increasing (map fst (queued s)) /\ hung s = false /\ bad s = false.
Proof.
  intros cmin cmax l H U. pose proof (reach cmin cmax H l U) as R. destruct (run cmin cmax init l) as (s & tr). intro N. specialize (R N). cbn [fst] in R. unfold queued at 2. rewrite map_length.
  exact (conj (i_size _ _ R) (conj (i_cnt _ _ R) (conj (i_max _ _ R) (conj (sorted_keys _ _ R) (conj (i_hung _ _ R) (i_bad _ _ R)))))).
Qed.
Print Assumptions C50_queue_exact.
(** a caller that gets its turn is accepted if and only if its packet fits beside the others; the position returned is the number of queued packets of smaller index *)
Theorem C50_accepted_iff_fits : forall cmin cmax l, setting cmin cmax -> usual l -> let '(s, tr) := run cmin cmax init l in no_race tr ->
  forall k n c, nth_error (calls s) k = Some c -> c_awake c = true -> let '(s', o) := step cmin cmax s (Enter k n) in let i := c_idx c in let d := c_data c in
  (fits s i d -> exists o1, o = o1 ++ [Accepted i d (Z.of_nat (length (filter (fun p => fst p <? i) (queued s))))] /\ accepted o1 = [] /\ Permutation (queued s') ((i, d) :: others i (queued s))) /\
  (~ fits s i d -> o = if drop s then [Dropped i] else []) /\
  (~ fits s i d -> queued s' = queued s /\ (drop s = false -> nth_error (calls s') k = Some (In_queue i d false))).
Proof.
  intros cmin cmax l H U. pose proof (reach cmin cmax H l U) as R. destruct (run cmin cmax init l) as (s & tr). intros N k n c K A. specialize (R N). pose proof (enter_spec cmin cmax H s k n c R K A) as E. destruct (step cmin cmax s (Enter k n)) as (s' & o). exact E.
Qed.
Print Assumptions C50_accepted_iff_fits.
(** when no thread is inside queue() at a start or stop, nothing accepted is ever lost: once the worker is gone, everything has been written *)
Theorem C50_stop_flushes : forall cmin cmax l, setting cmin cmax -> usual l -> tame cmin cmax init l -> let '(s, tr) := run cmin cmax init l in no_race tr ->
  lost tr = [] /\ (forallb gone (workers s) = true -> Permutation (accepted tr) (replaced tr ++ written tr)).
Proof.
  intros cmin cmax l H U T. pose proof (reach_calm cmin cmax H l U) as R. pose proof (conservation cmin cmax H l U) as C. destruct (run cmin cmax init l) as (s & tr). intro N. destruct (R N T) as (K & L). cbn [fst snd] in *. split; [ exact L |].
  intro G. specialize (C N). unfold queued in C. rewrite L, (t_gone _ K G) in C. cbn in C. now rewrite app_nil_r in C.
Qed.
Print Assumptions C50_stop_flushes.
(** ... and nobody sleeps for ever: the worker sleeps only on an empty queue, a caller only beside a non-empty one; the worker alone serves any waiting caller, and ends any stop *)
Theorem C50_no_lost_wakeup : forall cmin cmax l, setting cmin cmax -> usual l -> tame cmin cmax init l -> let '(s, tr) := run cmin cmax init l in no_race tr ->
  (In Asleep (workers s) -> queued s = [] /\ active s = true) /\ (Exists (fun c => c_awake c = false) (calls s) -> queued s <> []).
Proof.
  intros cmin cmax l H U T. pose proof (reach_calm cmin cmax H l U) as R. pose proof (reach cmin cmax H l U) as V. destruct (run cmin cmax init l) as (s & tr). intro N. destruct (R N T) as (K & L). specialize (V N). cbn [fst snd] in *. split.
  - intro I. unfold queued. destruct (i_one _ _ V) as [W|(x & W)]; rewrite W in I; [ destruct I |]. destruct I as [->|[]]. destruct (t_wake _ K W) as (Q & A). rewrite Q. auto.
  - intros E Q. apply (t_asleep _ K E). unfold queued in Q. now apply map_eq_nil in Q.
Qed.
Print Assumptions C50_no_lost_wakeup.
Theorem C50_caller_served : forall cmin cmax l, setting cmin cmax -> usual l -> tame cmin cmax init l -> let '(s, tr) := run cmin cmax init l in no_race tr ->
  forall k c, nth_error (calls s) k = Some c -> exists w, Forall worker_step w /\ exists p, snd (run cmin cmax s (w ++ [Enter k 0])) = snd (run cmin cmax s w) ++ [Accepted (c_idx c) (c_data c) p].
Proof. intros cmin cmax l H U T. pose proof (reach_calm cmin cmax H l U) as R. pose proof (reach cmin cmax H l U) as V. destruct (run cmin cmax init l) as (s & tr). intros N k c K. exact (served cmin cmax H s k c (V N) (proj1 (R N T)) K). Qed.
Print Assumptions C50_caller_served.
Theorem C50_stop_returns : forall cmin cmax l, setting cmin cmax -> usual l -> tame cmin cmax init l -> let '(s, tr) := run cmin cmax init l in no_race tr ->
  forall c, ctrl s = Joining c -> exists w, Forall worker_step w /\ forallb gone (workers (fst (run cmin cmax s w))) = true /\ queued (fst (run cmin cmax s w)) = [] /\ ctrl (fst (run cmin cmax s w)) = Joining c.
Proof.
  intros cmin cmax l H U T. pose proof (reach_calm cmin cmax H l U) as R. pose proof (reach cmin cmax H l U) as V. destruct (run cmin cmax init l) as (s & tr). intros N c K. destruct (stop_ends cmin cmax H s c (V N) (proj1 (R N T)) K) as (w & A & B & C & D). exists w. split; [ exact A |]. split; [ exact B |]. split; [| exact D ]. unfold queued. now rewrite C.
Qed.
Print Assumptions C50_stop_returns.
(** whatever the schedule and the number of workers: each write that throws is reported once, by a start or a stop, or still waits to be *)
Theorem C50_exceptions_reported : forall cmin cmax l, let '(s, tr) := run cmin cmax init l in Permutation (failed tr) (rethrown tr ++ exc s).
Proof. intros cmin cmax l. pose proof (exc_run cmin cmax l init) as R. destruct (run cmin cmax init l) as (s & tr). exact R. Qed.
Print Assumptions C50_exceptions_reported.

(** a thread blocked in queue() while the writer is stopped: its packet is accepted when the worker has left, and never written *)
Theorem C50_stop_flushes_always_refuted : exists cmin cmax l i d, setting cmin cmax /\ usual l /\ NoDup (asked l) /\ let '(s, tr) := run cmin cmax init l in
  no_race tr /\ In (i, d) (accepted tr) /\ In (i, d) (lost tr) /\ ~ In (i, d) (written tr).
Proof.
  exists 4, 100, [Start 4 false 1; Call 1 [1; 1; 1]; Enter 0 0; Call 2 [2; 2; 2]; Enter 0 0; Work 0; Stop; Done 0 true; Work 0; Joined; Enter 0 0; Start 4 false 1], 2, [2; 2; 2].
  split; [ unfold setting; lia |]. split; [ split; [ cbn; auto | repeat constructor; cbn; lia ] |]. split. { repeat constructor; cbn; lia. }
  vm_compute. split. { intros i X. repeat (destruct X as [X|X]; [ discriminate |]). exact X. } split; [ auto |]. split; [ auto |]. intros [X|[]]; discriminate.
Qed.
Print Assumptions C50_stop_flushes_always_refuted.

(** seven bytes for packets of three: the third call blocks, is woken and served; stopping flushes; a write fails and is reported *)
Definition day : list act := [Call 9 [9]; Start 7 false 1; Work 0; Call 5 [5; 5; 5]; Call 3 [3; 3; 3]; Enter 1 0; Enter 0 0; Call 4 [4; 4; 4]; Enter 0 0; Work 0; Done 0 true; Work 0; Enter 0 0; Done 0 false; Work 0; Done 0 true; Stop; Work 0; Joined; Stop; Call 8 [8]].
Example C50_ex : setting 7 100 /\ usual day /\ tame 7 100 init day /\ NoDup (asked day) /\
  snd (run 7 100 init day) = [Direct 9 [9]; Accepted 3 [3; 3; 3] 0; Accepted 5 [5; 5; 5] 1; Began 3 [3; 3; 3]; Wrote 3 [3; 3; 3] true; Began 5 [5; 5; 5]; Accepted 4 [4; 4; 4] 0; Wrote 5 [5; 5; 5] false; Began 4 [4; 4; 4]; Wrote 4 [4; 4; 4] true; Rethrown 5; Joined_all; Direct 8 [8]].
Proof. split; [ unfold setting; lia |]. split; [ split; [ cbn; auto | repeat constructor; cbn; lia ] |]. split; [ vm_compute; repeat split |]. split; [ repeat constructor; cbn; lia |]. vm_compute. reflexivity. Qed.
(** in the middle of it a caller sleeps, and the worker is needed *)
Example C50_ex_blocked : map c_awake (calls (fst (run 7 100 init (firstn 9 day)))) = [false] /\ queued (fst (run 7 100 init (firstn 9 day))) = [(3, [3; 3; 3]); (5, [5; 5; 5])] /\ ~ fits (fst (run 7 100 init (firstn 9 day))) 4 [4; 4; 4] /\ fits (fst (run 7 100 init (firstn 9 day))) 3 [4; 4; 4; 4].
Proof. split; [ reflexivity |]. split; [ reflexivity |]. split; [ intro X | ]; vm_compute in *; [ now apply X | discriminate ]. Qed.
