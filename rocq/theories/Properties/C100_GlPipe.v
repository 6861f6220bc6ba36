(** C100: which packets an asynchronous consumer hands to the graphics card. *)
From Coq Require Import List Bool Arith.
From Verif Require Import Model.GlPipe Spec.GlPipe Proofs.GlPipe.
Import ListNotations.

(** whatever packets are announced, with any number of layers and with or without upload buffers, a call handles the packet announced by the previous call (the first
    one packet 0): the algorithm and the evaluator read its image and ground truth, and the same packet is counted, saved and shown *)
Theorem C100_calls : forall X pbo layers (s : source X) l, 2 <= layers -> complete s -> Forall (fun i => i < n_inputs s) (removelast l) ->
  exists c c' es, con_init layers s con_new = Some c /\ con_run pbo layers s l c = (c', es) /\ Forall2 (of_packet s 0) (removelast (0 :: l)) es.
Proof. intros X. exact first_run. Qed.
Print Assumptions C100_calls.
(** the loop of the applications handles every packet once, in order *)
Theorem C100_loop : forall X pbo layers (s : source X), 2 <= layers -> complete s ->
  exists c c' es, con_init layers s con_new = Some c /\ con_run pbo layers s (seq 1 (n_inputs s)) c = (c', es) /\ Forall2 (of_packet s 0) (seq 0 (n_inputs s)) es.
Proof. intros X. exact loop. Qed.
Print Assumptions C100_loop.
(** initialising again resumes at the packet announced last, with its region of interest *)
Theorem C100_resume : forall X pbo layers (s : source X) l l', 2 <= layers -> complete s -> l <> [] -> Forall (fun i => i < n_inputs s) l ->
  Forall (fun i => i < n_inputs s) (removelast l') ->
  exists c c1 es1 c2 c3 es2, con_init layers s con_new = Some c /\ con_run pbo layers s l c = (c1, es1) /\ con_init layers s c1 = Some c2 /\
    con_run pbo layers s l' c2 = (c3, es2) /\ Forall2 (of_packet s (last l 0)) (removelast (last l 0 :: l')) es2.
Proof. intros X. exact resume. Qed.
Print Assumptions C100_resume.
(** so a batch cannot be processed twice: after the loop, initialising fails *)
Theorem C100_rerun_refuted : forall X pbo layers (s : source X), 2 <= layers -> complete s -> (forall i, n_inputs s <= i -> inputs s i = None) ->
  exists c c' es, con_init layers s con_new = Some c /\ con_run pbo layers s (seq 1 (n_inputs s)) c = (c', es) /\ con_init layers s c' = None.
Proof. intros X. exact rerun_fails. Qed.
Print Assumptions C100_rerun_refuted.

(** packets [10; 11; ...], ground truths [20; 21; ...] *)
Definition some_packets (n base i : nat) : option nat := if i <? n then Some (base + i) else None.
Definition ex_source (n : nat) : source nat := Src n n (some_packets n 10) (some_packets n 20) true true.
Definition ex_events (pbo : bool) (layers : nat) (s : source nat) (l : list nat) : option (list (event nat)) :=
  match con_init layers s con_new with Some c => Some (snd (con_run pbo layers s l c)) | None => None end.
(** one call too many handles the last packet again, under an index that does not exist *)
Theorem C100_past_end_refuted : exists s, complete s /\ n_inputs s = 3 /\ forall pbo,
  option_map (map (fun e => (e_idx e, e_in e))) (ex_events pbo 2 s [1; 2; 3; 4]) = Some [(0, inputs s 0); (1, inputs s 1); (2, inputs s 2); (3, inputs s 2)].
Proof.
  exists (ex_source 3). split.
  - split; [ repeat constructor |]. split; [ repeat constructor |]. cbn [n_inputs ex_source inputs gts evaluating]. intros i I. unfold some_packets.
    rewrite (proj2 (Nat.ltb_lt _ _) I). split; discriminate.
  - split; [ reflexivity |]. intros [|]; reflexivity.
Qed.
Print Assumptions C100_past_end_refuted.
(** a packet without ground truth is scored against the ground truth of two packets before *)
Theorem C100_no_truth_refuted : exists s : source nat, gts s 2 = None /\ forall pbo,
  option_map (map (fun e => (e_idx e, e_gt e))) (ex_events pbo 2 s [1; 2; 3; 4]) = Some [(0, gts s 0); (1, gts s 1); (2, gts s 0); (3, gts s 3)] /\ gts s 0 <> None.
Proof.
  exists (Src 4 4 (some_packets 4 10) (fun i => if i =? 2 then None else some_packets 4 20 i) true true). split; [ reflexivity |]. intros [|]; (split; [ reflexivity | discriminate ]).
Qed.
Print Assumptions C100_no_truth_refuted.
(** the evaluator scores every packet within the region of interest of the first one *)
Theorem C100_roi_refuted : exists s, complete s /\ option_map (map (fun e => (e_idx e, e_roi e))) (ex_events false 2 s [1; 2; 3]) = Some [(0, 0); (1, 0); (2, 0)].
Proof.
  exists (ex_source 3). split.
  - split; [ repeat constructor |]. split; [ repeat constructor |]. cbn [n_inputs ex_source inputs gts evaluating]. intros i I. unfold some_packets.
    rewrite (proj2 (Nat.ltb_lt _ _) I). split; discriminate.
  - vm_compute. reflexivity.
Qed.
Print Assumptions C100_roi_refuted.

(** out of order, with three layers and upload buffers *)
Example C100_ex : option_map (map (fun e => (e_idx e, e_in e, e_gt e, e_shown_in e))) (ex_events true 3 (ex_source 6) [4; 5; 1; 1; 3]) =
  Some [(0, Some 10, Some 20, Some 10); (4, Some 14, Some 24, Some 14); (5, Some 15, Some 25, Some 15); (1, Some 11, Some 21, Some 11); (1, Some 11, Some 21, Some 11)].
Proof. reflexivity. Qed.
