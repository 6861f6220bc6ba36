(** C18: the semaphore. *)
From Coq Require Import ZArith List Bool Lia.
From Verif Require Import Lib.Threads Model.Semaphore Spec.Semaphore Proofs.Semaphore.
Import ListNotations.
Open Scope Z_scope.

(** whatever the threads do, the count is what was put in minus what was handed out, so that no more is ever handed out than was put in *)
Theorem C18_conservation : forall n l, 0 <= n < 2 ^ 64 -> let '(s, tr) := run (init n) l in n + notified tr < 2 ^ 64 -> cnt s = n + notified tr - taken tr /\ taken tr <= n + notified tr.
Proof.
  intros n l H. pose proof (run_sum l (init n) (inv_init n H)) as R. pose proof (run_inv l (init n) (inv_init n H)) as I. destruct (run (init n) l) as (s & tr). intro N. cbn [cnt init fst] in *. specialize (R N). split; [ exact R |]. pose proof (i_cnt _ I). lia.
Qed.
Print Assumptions C18_conservation.
(** a thread sleeps only if there are at least as many threads on their way to the resources as there are resources *)
Theorem C18_no_lost_wakeup : forall n l, 0 <= n < 2 ^ 64 -> let s := fst (run (init n) l) in 0 <= cnt s /\ (sleeping s <> [] -> cnt s <= Z.of_nat (length (woken s))).
Proof.
  intros n l H. pose proof (run_inv l (init n) (inv_init n H)) as I. cbn zeta. split; [ exact (proj1 (i_cnt _ I)) |]. intro S. unfold woken. rewrite filter_howmany. apply (i_wake _ I). intro Z. apply S. unfold sleeping.
  apply length_zero_iff_nil. rewrite filter_howmany. exact Z.
Qed.
Print Assumptions C18_no_lost_wakeup.
(** left alone, the waiting threads share out exactly what there is: once those awake have had their turn, in any order, either nothing is left or nobody waits *)
Theorem C18_turns_hand_out_all : forall n l w, 0 <= n < 2 ^ 64 -> only_turns w -> let s := fst (run (init n) l) in let '(s', tr) := run s w in woken s' = [] ->
  taken tr = Z.min (cnt s) (Z.of_nat (length (waiters s))) /\ cnt s' = cnt s - taken tr.
Proof.
  intros n l w H T. pose proof (turns_exact w (fst (run (init n) l)) (run_inv l (init n) (inv_init n H)) T) as R. cbn zeta. destruct (run (fst (run (init n) l)) w) as (s' & tr). intro E.
  unfold woken in E. apply length_zero_iff_nil in E. rewrite filter_howmany in E. destruct (R E) as (A & B & _). split; [ exact A | exact B ].
Qed.
Print Assumptions C18_turns_hand_out_all.
(** ... and they do have their turn: each turn ends with one thread less awake, and decides on the count alone *)
Theorem C18_turn : forall n l k w, 0 <= n < 2 ^ 64 -> let s := fst (run (init n) l) in nth_error (waiters s) k = Some w -> awake w = true -> let '(s', tr) := step s (Turn k) in
  length (woken s) = S (length (woken s')) /\ (0 < cnt s -> tr = [Took] /\ cnt s' = cnt s - 1) /\
  (cnt s = 0 -> cnt s' = 0 /\ if expired w then tr = [Timed_out] /\ timed w = true else tr = [] /\ nth_error (waiters s') k = Some (Waiter (timed w) false false)).
Proof.
  intros n l k w H s N E. pose proof (turn_spec s k w N E) as R. pose proof (run_inv l (init n) (inv_init n H)) as I. fold s in I. pose proof (i_exp _ I) as X. rewrite Forall_forall in X. specialize (X w (nth_error_In _ _ N)).
  unfold woken. destruct (step s (Turn k)) as (s' & tr) eqn:Q. cbn [step] in Q. rewrite N, E in Q. unfold turn in Q. rewrite !filter_howmany. destruct R as (R1 & R2 & R3). split; [ exact R1 |]. split.
  - intro P. destruct (R2 P) as (-> & _). split; [ reflexivity |]. apply Z.ltb_lt in P. rewrite P in Q. injection Q as <- . reflexivity.
  - intro P. destruct (R3 ltac:(lia)) as (_ & R4 & R5). rewrite P in Q. cbn [Z.ltb Z.compare] in Q. destruct (expired w).
    + injection Q as <- <-. auto.
    + injection Q as <- <-. split; [ reflexivity |]. split; [ reflexivity |]. cbn [waiters]. destruct (nth_cut _ _ _ N) as (l1 & l2 & _ & L & S & _). rewrite S, <- L. rewrite nth_error_app2, PeanoNat.Nat.sub_diag by lia. reflexivity.
Qed.
Print Assumptions C18_turn.
(** try_wait never blocks and succeeds exactly when a resource is there *)
Theorem C18_try : forall n l, 0 <= n < 2 ^ 64 -> let s := fst (run (init n) l) in let '(s', tr) := step s Try in tr = [Tried (0 <? cnt s)] /\ waiters s' = waiters s /\ cnt s' = Z.max 0 (cnt s - 1).
Proof.
  intros n l H s. pose proof (run_inv l (init n) (inv_init n H)) as I. fold s in I. pose proof (i_cnt _ I) as C. cbn [step]. destruct (Z.ltb_spec 0 (cnt s)); cbn [cnt waiters]; (split; [ reflexivity |]); (split; [ reflexivity |]); lia.
Qed.
Print Assumptions C18_try.

(** threads are not served in the order of their arrival: one can be overtaken any number of times, although as many resources have been put in *)
Theorem C18_fairness_refuted : exists w, forall n, exists l, let '(s, tr) := run (init 0) ([Wait false; Turn 0] ++ l) in waiters s = [w] /\ taken tr = Z.of_nat n /\ notified tr = Z.of_nat n.
Proof.
  exists (Waiter false false false). intro n. exists (overtaken n). rewrite run_app. change (run (init 0) [Wait false; Turn 0]) with (St 0 [Waiter false false false], @nil obs). cbn [app]. rewrite overtaken_run. destruct (overtaken_taken n) as (A & B). auto.
Qed.
Print Assumptions C18_fairness_refuted.
(** one resource too many and the count starts again from nothing *)
Theorem C18_overflow_refuted : exists n l, 0 <= n < 2 ^ 64 /\ let '(s, tr) := run (init n) l in cnt s <> n + notified tr - taken tr /\ cnt s = 0.
Proof. exists (2 ^ 64 - 1), [Notify 0]. vm_compute. repeat split; discriminate. Qed.
Print Assumptions C18_overflow_refuted.

(** three waiters on two resources, one of them with a time limit *)
Definition story : list act := [Wait false; Turn 0; Wait true; Turn 1; Wait false; Turn 2; Notify 1; Notify 7; Expire 1; Try; Turn 0].
Example C18_ex : let '(s, tr) := run (init 0) story in tr = [Notified; Notified; Tried true; Took] /\ cnt s = 0 /\ waiters s = [Waiter true true false; Waiter false false false] /\ snd (run s [Turn 0; Expire 0; Turn 0]) = [Timed_out].
Proof. vm_compute. auto. Qed.
Example C18_ex_wakeup : let s := fst (run (init 0) (firstn 8 story)) in cnt s = 2 /\ sleeping s <> [] /\ length (woken s) = 2%nat /\ let '(s', tr) := run s [Turn 1; Turn 0; Turn 0] in woken s' = [] /\ taken tr = 2 /\ length (waiters s') = 1%nat.
Proof. vm_compute. repeat split; discriminate. Qed.
