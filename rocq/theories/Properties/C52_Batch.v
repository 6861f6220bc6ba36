(** C52: packet counts and processing times of a work batch. *)
From Coq Require Import ZArith List Bool Lia.
From Verif Require Import Model.Batch Spec.Batch Proofs.Batch.
Import ListNotations.
Open Scope Z_scope.

(** the output count is the number of different indices pushed since the last start or reset, whatever was called *)
Theorem C52_count : forall l, let '(s, tr) := run init l in snd (step s Get_count) = Value (different (pushed false [] tr)).
Proof. intro l. pose proof (reach l) as R. destruct (run init l) as (s & tr). cbn [step snd]. f_equal. exact (size_pushed s tr R). Qed.
Print Assumptions C52_count.
(** packets are taken between start and stop only *)
Theorem C52_push : forall l i, let '(s, tr) := run init l in snd (step s (Push i)) = if on false tr then Done else Threw.
Proof. intros l i. pose proof (reach l) as R. destruct (run init l) as (s & tr). cbn [step]. rewrite <- (i_on _ _ R). now destruct (processing s). Qed.
Print Assumptions C52_push.
(** asking for the final count blocks until the batch has been stopped; from then on it always gives the number of different indices pushed *)
Theorem C52_final_count : forall l, let '(s, tr) := run init l in snd (step s Get_final_count) = if stopped false tr then Value (different (pushed false [] tr)) else Blocks.
Proof.
  intro l. pose proof (reach l) as R. destruct (run init l) as (s & tr). cbn [step]. unfold get. pose proof (i_count _ _ R) as C. rewrite <- (size_pushed s tr R). destruct (stopped false tr).
  - destruct C as (_ & T & F). rewrite T. destruct (fut (count s)); cbn [snd]; [ reflexivity |]. now rewrite F.
  - rewrite C. reflexivity.
Qed.
Print Assumptions C52_final_count.
(** the same for the time, which is forgotten as soon as a start is tried; a batch never started took no time *)
Theorem C52_final_time : forall l, let '(s, tr) := run init l in snd (step s Get_final_time) = match timed false None tr with Some t => Value t | None => if start_tried tr then Blocks else Value 0 end.
Proof.
  intro l. pose proof (reach l) as R. destruct (run init l) as (s & tr). cbn [step]. unfold get. pose proof (i_time _ _ R) as C. destruct (timed false None tr).
  - destruct C as (_ & -> & ->). reflexivity.
  - destruct C as (-> & ->). now destruct (start_tried tr).
Qed.
Print Assumptions C52_final_time.
Theorem C52_current_time : forall l now, let '(s, tr) := run init l in snd (step s (Get_time now)) = Value (if on false tr then now else match timed false None tr with Some t => t | None => 0 end).
Proof.
  intros l now. pose proof (reach l) as R. destruct (run init l) as (s & tr). cbn [step snd]. rewrite (i_on _ _ R). destruct (on false tr); [ reflexivity |]. pose proof (i_time _ _ R) as C. destruct (timed false None tr).
  - now destruct C as (_ & _ & ->).
  - now destruct C as (_ & ->).
Qed.
Print Assumptions C52_current_time.
(** a batch is processed at most once: after a stop neither start nor resetMetrics works any more *)
Theorem C52_never_again : forall l, let '(s, tr) := run init l in (starts false tr <= 1)%nat /\ (stopped false tr = true -> snd (step s Start) = Threw /\ snd (step s Reset) = Threw) /\ (stopped false tr = false -> snd (step s Start) = Done /\ snd (step s Reset) = Done).
Proof.
  intro l. pose proof (reach l) as R. destruct (run init l) as (s & tr). split. { rewrite (i_starts _ _ R). destruct (processing s || stopped false tr); lia. }
  pose proof (i_count _ _ R) as C. split; intro Q; rewrite Q in C; cbn [step].
  - destruct C as (P & T & _). unfold resetOutputCount, set_value. cbn [count]. rewrite P, T. auto.
  - unfold resetOutputCount. cbn [count packets]. rewrite C. cbn [set_value told fresh]. destruct (processing s); auto.
Qed.
Print Assumptions C52_never_again.

(** "start, stop, start" is not possible; worse, the failed start makes the final time, known before, block for ever *)
Theorem C52_restart_refuted : exists l t, let '(s, tr) := run init l in snd (step s Get_final_time) = Value t /\ snd (step s Start) = Threw /\
  forall l', let '(s', tr') := run (fst (step s Start)) l' in snd (step s' Get_final_time) = Blocks.
Proof.
  exists [Start; Push 3; Stop 7], 7. cbn [run step]. split; [ reflexivity |]. split; [ reflexivity |]. intro l'.
  assert (Q : forall l s, told (count s) <> None -> processing s = false -> time s = fresh -> let '(s', _) := run s l in snd (step s' Get_final_time) = Blocks).
  { clear. induction l as [|a l IH]; intros s T P F; cbn [run]. { cbn [step]. rewrite F. reflexivity. }
    assert (S : let s' := fst (step s a) in told (count s') <> None /\ processing s' = false /\ time s' = fresh).
    { destruct (told (count s)) as [v|] eqn:E; [| congruence ]. destruct a; cbn [step]; unfold resetOutputCount, set_value, get; cbn [count]; rewrite ?P, ?F, ?E; cbn [fst fut told fresh count processing time]; rewrite ?E; auto.
      destruct (fut (count s)); cbn [fst count processing time told]; rewrite ?E; auto. }
    destruct (step s a) as (s' & r). cbn [fst] in S. destruct S as (A & B & C). specialize (IH s' A B C). destruct (run s' l) as (s2 & tr2). exact IH. }
  apply Q; [ discriminate | reflexivity | reflexivity ].
Qed.
Print Assumptions C52_restart_refuted.

Example C52_ex : snd (run init [Get_final_time; Push 1; Start; Push 5; Push 2; Push 5; Get_count; Reset; Push 2; Push 8; Push 2; Start; Get_final_count; Get_time 4; Stop 9; Get_final_count; Get_final_count; Get_final_time; Push 1; Reset; Start; Get_count; Get_final_time]) =
  [(Get_final_time, Value 0); (Push 1, Threw); (Start, Done); (Push 5, Done); (Push 2, Done); (Push 5, Done); (Get_count, Value 2); (Reset, Done); (Push 2, Done); (Push 8, Done); (Push 2, Done); (Start, Done); (Get_final_count, Blocks); (Get_time 4, Value 4); (Stop 9, Done);
   (Get_final_count, Value 2); (Get_final_count, Value 2); (Get_final_time, Value 9); (Push 1, Threw); (Reset, Threw); (Start, Threw); (Get_count, Value 2); (Get_final_time, Blocks)].
Proof. reflexivity. Qed.
