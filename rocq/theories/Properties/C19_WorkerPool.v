(** C19: the worker pool. *)
From Coq Require Import ZArith List Bool Lia Permutation.
From Verif Require Import Lib.Threads Model.WorkerPool Spec.WorkerPool Proofs.WorkerPool.
Import ListNotations.
Open Scope Z_scope.

(** tasks start in the order in which they were queued, each once; what has not started is still queued, or was destroyed with the pool *)
Theorem C19_first_in_first_out : forall n l, let '(s, tr) := run (init n) l in queued tr = begun tr ++ broken tr ++ queue s.
Proof. intros n l. pose proof (reach n l) as R. destruct (run (init n) l) as (s & tr). exact (i_queue _ _ _ R). Qed.
Print Assumptions C19_first_in_first_out.
(** each task started finishes once, at most as many at a time as there are workers *)
Theorem C19_each_once : forall n l, let '(s, tr) := run (init n) l in Permutation (begun tr) (finished tr ++ running (workers s)) /\ (length (running (workers s)) <= n)%nat.
Proof. intros n l. pose proof (reach n l) as R. destruct (run (init n) l) as (s & tr). split; [ exact (i_run _ _ _ R) |]. rewrite <- (i_len _ _ _ R). apply running_length. Qed.
Print Assumptions C19_each_once.
(** no wake-up is lost: if a worker sleeps, there are no more tasks queued than workers and notifications on their way *)
Theorem C19_no_lost_wakeup : forall n l, let s := fst (run (init n) l) in In Asleep (workers s) -> active s = true /\
  (length (queue s) <= length (filter (fun w => match w with Ready => true | _ => false end) (workers s)) + length (filter (fun c => match c_phase c with Pushed => true | _ => false end) (calls s)))%nat.
Proof.
  intros n l s A. pose proof (reach n l) as R. unfold s in *. destruct (run (init n) l) as (s' & tr). cbn [fst] in *. assert (Z : howmany asleep (workers s') <> O). { intro Z. apply howmany_0 in Z. rewrite Forall_forall in Z. specialize (Z _ A). discriminate. }
  assert (F : forall B (f : B -> bool) m, length (filter f m) = howmany f m). { intros B f m. induction m as [|x m IH]; cbn [filter howmany]; [ reflexivity |]. destruct (f x); cbn [length]; lia. }
  rewrite !F. exact (i_sleep _ _ _ R Z).
Qed.
Print Assumptions C19_no_lost_wakeup.
(** the destructor, started when no other thread is inside queueTask(), returns with every task finished; tasks that queue tasks are no exception *)
Theorem C19_destructor_runs_all : forall n l, (0 < n)%nat -> tame (init n) l -> let '(s, tr) := run (init n) l in broken tr = [] /\ bad s = false /\ (ctrl s = Over -> Permutation (queued tr) (finished tr)).
Proof.
  intros n l P T. pose proof (reach_broken n l P T) as B. pose proof (reach n l) as R. pose proof (reach_calm n l P T) as K. destruct (run (init n) l) as (s & tr). cbn [fst snd] in *. split; [ exact B |]. split; [ exact (t_bad _ K) |]. intro O. destruct (i_over _ _ _ R O) as (Q & G).
  rewrite (i_queue _ _ _ R), Q, B, !app_nil_r, (i_run _ _ _ R), running_none, app_nil_r; [ reflexivity |]. eapply Forall_impl; [| exact G ]. auto.
Qed.
Print Assumptions C19_destructor_runs_all.
(** nobody waits for ever: threads that go on with what they are doing come to rest after a bounded number of steps, and then every task queued is finished, and the destructor, if it was called, is free to return *)
Theorem C19_comes_to_rest : forall n l, (0 < n)%nat -> tame (init n) l -> let '(s, tr) := run (init n) l in ctrl s <> Over -> (exists m, forall w, Forall working w -> does_all s w -> (length w <= m)%nat) /\
  (at_rest s -> Permutation (queued tr) (finished tr) /\ calls s = [] /\ (active s = false -> forallb gone (workers s) = true) /\ (active s = true -> Forall (fun w => w = Asleep) (workers s))).
Proof.
  intros n l P T. pose proof (reach_broken n l P T) as B. pose proof (reach n l) as R. pose proof (reach_calm n l P T) as K. destruct (run (init n) l) as (s & tr). cbn [fst snd] in *. intro O. split.
  - exists (cost s). intros w W D. exact (bounded n w P s tr R K O W D).
  - intro A. destruct (resting n s tr P R K O A) as (Q & C & G). split. { rewrite (i_queue _ _ _ R), Q, B, !app_nil_r, (i_run _ _ _ R), running_none, app_nil_r; [ reflexivity |]. eapply Forall_impl; [| exact G ]. intros x ->. destruct (active s); auto. }
    split; [ exact C |]. split; intro X; rewrite X in G; [ now apply forallb_gone | exact G ].
Qed.
Print Assumptions C19_comes_to_rest.
(** ... since any schedule of such steps leads to a state of the same kind *)
Theorem C19_rest_is_reached : forall n l, (0 < n)%nat -> tame (init n) l -> let s := fst (run (init n) l) in ctrl s <> Over -> exists w, Forall working w /\ at_rest (fst (run s w)) /\ ctrl (fst (run s w)) = ctrl s.
Proof.
  intros n l P T s O. pose proof (reach n l) as R. pose proof (reach_calm n l P T) as K. unfold s in *. destruct (run (init n) l) as (s' & tr). cbn [fst] in *. exact (rest_reached n P (cost s') s' tr (le_n _) R K O).
Qed.
Print Assumptions C19_rest_is_reached.
(** once destruction has begun every request is refused; before, none is *)
Theorem C19_refused : forall n l t, let s := fst (run (init n) l) in bad s = false -> ctrl s <> Over -> (snd (step s (Ask t None)) = [Refused t] <-> ctrl s <> Free) /\ (ctrl s = Free -> calls (fst (step s (Ask t None))) = calls s ++ [Call t None Checked]).
Proof.
  intros n l t s B O. pose proof (reach n l) as R. unfold s in *. destruct (run (init n) l) as (s' & tr). cbn [fst] in *. pose proof (i_ctrl _ _ _ R) as C. unfold step, ask. rewrite B. destruct (ctrl s'); destruct (active s') eqn:A; cbn [fst snd calls]; split; try split; try congruence; try tauto; intros; try discriminate; try reflexivity; exfalso; assert (true = true) by reflexivity; intuition congruence.
Qed.
Print Assumptions C19_refused.

(** a thread inside queueTask() when the destructor starts: its task is accepted, yet never runs *)
Theorem C19_accepted_always_runs_refuted : exists n l t, (0 < n)%nat /\ let '(s, tr) := run (init n) l in In (Queued t) tr /\ In (Broken t) tr /\ ~ In (Began t) tr /\ bad s = false.
Proof.
  exists 2%nat, [Ask 5 None; Turn 0; Turn 1; Destroy; Turn 0; Turn 1; Push 0; Ping 0 0; Join], 5. vm_compute. split; [ lia |]. split; [ auto |]. split; [ auto |]. split; [| reflexivity ]. intros [X|[X|[X|[]]]]; discriminate.
Qed.
Print Assumptions C19_accepted_always_runs_refuted.
(** ... or it goes on to use the destroyed pool *)
Theorem C19_safe_destruction_refuted : exists n l, (0 < n)%nat /\ bad (fst (run (init n) l)) = true.
Proof. exists 1%nat, [Ask 5 None; Destroy; Turn 0; Join; Push 0]. vm_compute. split; [ lia | reflexivity ]. Qed.
Print Assumptions C19_safe_destruction_refuted.

(** two workers, three tasks; the second task queues a fourth after the destructor has started *)
Definition shift : list act := [Turn 0; Turn 1; Ask 1 None; Push 0; Ping 0 1; Turn 1; Ask 2 None; Ask 3 None; Push 1; Push 0; Ping 1 1; Turn 0; Ping 0 0; Turn 0; Ask 4 (Some 0%nat); Destroy; Ask 9 None; Ask 9 (Some 1%nat); Finish 1 true; Turn 1; Push 0; Finish 0 true; Ping 0 0; Finish 0 true; Turn 0; Finish 1 false; Turn 1; Finish 0 true; Turn 0; Join].
Example C19_ex : tame (init 2) shift /\ let '(s, tr) := run (init 2) shift in
  tr = [Queued 1; Began 1; Queued 3; Queued 2; Began 3; Refused 9; Refused 9; Finished 1 true; Began 2; Queued 4; Finished 3 true; Began 4; Finished 2 false; Finished 4 true; Destroyed] /\ ctrl s = Over /\ forallb gone (workers s) = true.
Proof. split; [ vm_compute; repeat split; repeat constructor; discriminate |]. vm_compute. auto. Qed.
(** at rest with all asleep, and not at rest *)
Example C19_ex_rest : at_rest (fst (run (init 2) (firstn 2 shift))) /\ In Asleep (workers (fst (run (init 2) (firstn 4 shift)))) /\ queue (fst (run (init 2) (firstn 4 shift))) = [1] /\ does (fst (run (init 2) (firstn 4 shift))) (Ping 0 1).
Proof.
  split. { intros a W. change (fst (run (init 2) (firstn 2 shift))) with (St true [] [Asleep; Asleep] [] Free false). destruct a; try contradiction; cbn.
    - destruct j; reflexivity.
    - destruct j; reflexivity.
    - destruct k as [|[|[|k]]]; reflexivity.
    - destruct k as [|[|[|k]]]; reflexivity. }
  split; [ left; reflexivity |]. split; [ reflexivity |]. vm_compute. discriminate.
Qed.
