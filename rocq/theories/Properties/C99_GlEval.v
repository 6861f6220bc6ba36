(** C99: the evaluation of classifications on the graphics card. *)
From Coq Require Import ZArith List Bool Permutation.
From Verif Require Import Lib.Grid Model.Metrics Model.GlEval Spec.MetricsTree Spec.GlEval Proofs.GlEval.
Import ListNotations.
Open Scope Z_scope.

(** whatever the order of the shader's invocations, the frames read in between and the size of the buffer, the card reports the counters of the processor over the
    same frames, plus one don't-care per frame for every invocation beyond the border of the frame *)
Theorem C99_counts : forall max frames h w roi l ops, 48 <= max -> h * w + padding h w < 4294967296 ->
  Forall (input_ok h w roi) l -> Z.of_nat (length l) <= frames -> 0 < frames -> frames_of ops = frames_of (map (as_op roi) l) ->
  exists d, accumulate_frames zero_counters (map (as_frame roi) l) = Some d /\
    gl_metrics max frames ops = Some (accumulate d (Cnt 0 0 0 0 0 (Z.of_nat (length l) * padding h w))).
Proof. exact metrics_total. Qed.
Print Assumptions C99_counts.
(** a frame beyond the announced number of frames is refused *)
Theorem C99_over : forall max frames ops, 48 <= max -> 0 < frames < Z.of_nat (length (frames_of ops)) -> gl_metrics max frames ops = None.
Proof. exact metrics_over. Qed.
Print Assumptions C99_over.
(** the counters read at any time are those of every frame so far, each in its own row, then zeros: no block is lost, counted twice or written past the end *)
Theorem C99_rows : forall k total l, (0 < k)%nat ->
  ((length (frames_of l) <= total)%nat -> exists st, gl_run k total (l ++ [Fetch]) = Some st /\
     copy st = map (fun f => f zero_counters) (frames_of l) ++ repeat zero_counters (total - length (frames_of l))) /\
  ((total < length (frames_of l))%nat -> gl_run k total l = None).
Proof. exact run_rows. Qed.
Print Assumptions C99_rows.
(** there are such invocations unless the frame is a whole number of groups *)
Theorem C99_padding : forall h w, 0 < h -> 0 < w -> padding h w = 0 <-> (8 | h) /\ (12 | w).
Proof. exact padding_zero. Qed.
Print Assumptions C99_padding.
(** so the validation of the card's counters passes for these sizes only *)
Theorem C99_validated : forall d h w n, good d -> 0 < h -> 0 < w -> 0 <= n -> n * padding h w < 18446744073709551616 ->
  validated d (accumulate d (Cnt 0 0 0 0 0 (n * padding h w))) = true <-> n = 0 \/ (8 | h) /\ (12 | w).
Proof. exact validated_iff. Qed.
Print Assumptions C99_validated.
(** frames of 320 by 240: one frame is enough to fail it, with any content *)
Theorem C99_validated_refuted : exists h w, h = 240 /\ w = 320 /\ forall roi x, input_ok h w roi x ->
  exists cpu gpu, accumulate_frames zero_counters [as_frame roi x] = Some cpu /\ gl_metrics 65536 100 [as_op roi x] = Some gpu /\ validated cpu gpu = false.
Proof.
  exists 240, 320. split; [ reflexivity |]. split; [ reflexivity |]. intros roi x I.
  destruct (metrics_total 65536 100 240 320 roi [x] [as_op roi x]) as (d & E1 & E2); [ discriminate | reflexivity | now constructor | discriminate | reflexivity | reflexivity |].
  assert (G : good d).
  { unfold accumulate_frames in E1. cbn [map fold_left] in E1. unfold as_frame in E1. eapply Proofs.Metrics.mats_good; [ apply Proofs.Metrics.good_zero | exact E1 ]. }
  exists d, (accumulate d (Cnt 0 0 0 0 0 (Z.of_nat (length [x]) * padding 240 320))). split; [ exact E1 |]. split; [ exact E2 |].
  match goal with |- ?v = false => destruct v eqn:V; [| reflexivity ] end.
  apply validated_iff in V as [V | [_ [q V]]]; auto; try reflexivity; try discriminate. exfalso. Lia.lia.
Qed.
Print Assumptions C99_validated_refuted.
(** the buffer holds a whole number of frames, at least one, and fewer bytes than the limit *)
Theorem C99_block : forall max frames, 48 <= max -> 0 < frames ->
  exists b, block_bytes max frames = Some b /\ 0 < b < max /\ (24 | b) /\ b <= frames * 24.
Proof. exact block_ok. Qed.
Print Assumptions C99_block.
(** not so between the limit the constructor accepts and twice a frame: the buffer ends up empty and the first frame fails *)
Theorem C99_block_refuted : exists max frames, 24 < max /\ block_bytes max frames = Some 0 /\ forall f, gl_metrics max frames [Frame f] = None.
Proof. exists 32, 3. split; [ reflexivity |]. split; reflexivity. Qed.
Print Assumptions C99_block_refuted.
(** a reset does not start over: the frames before it are still counted *)
Theorem C99_reset_refuted : exists f, gl_metrics 65536 4 [Frame f; Reset] = Some (Cnt 1 0 0 0 0 0) /\ gl_metrics 65536 4 [Reset] = Some zero_counters.
Proof. exists (fun c => gl_pixel c 255 255 255). split; reflexivity. Qed.
Print Assumptions C99_reset_refuted.
(** colours of the debug image are those of the processor up to one unit *)
Theorem C99_colours : forall i g r, i = 0 \/ i = 255 ->
  let '(b, gr, rd) := gl_colour i g r in let '(b', gr', rd') := colour i g (Some r) in
  Z.abs (b - b') <= 1 /\ Z.abs (gr - gr') <= 1 /\ Z.abs (rd - rd') <= 1.
Proof. exact colours_near. Qed.
Print Assumptions C99_colours.
Theorem C99_colours_refuted : (exists i g r, (i = 0 \/ i = 255) /\ gl_colour i g r <> colour i g (Some r)) /\
  (exists i g r, gl_colour i g r = (0, 0, 0) /\ colour i g (Some r) = (200, 200, 200)).
Proof. split; [ exists 255, 50, 255 | exists 200, 85, 255 ]; split; try reflexivity; [ now right | discriminate ]. Qed.
Print Assumptions C99_colours_refuted.

(** two frames of 3 by 2 with all invocations, in the order of the grid and backwards *)
Definition flat (v : Z) : mat := Mat 2 3 3 (fun _ => v).
Definition ex_inputs : list gl_input := [In_ (flat 255) (flat 50) (invocations 2 3); In_ (flat 0) (flat 255) (rev (invocations 2 3))].
Example C99_ex_inputs : Forall (input_ok 2 3 (flat 255)) ex_inputs /\ padding 2 3 = 90 /\
  gl_metrics 100 4 (Fetch :: map (as_op (flat 255)) ex_inputs) = Some (Cnt 0 0 6 6 6 180).
Proof.
  split; [| split; reflexivity ].
  assert (F : forall a b, frame_ok (flat a) (Some (flat b)) (Some (flat 255))).
  { intros a b. split; [ reflexivity |]. split; [ reflexivity |]. split; [ reflexivity |]. split; intros g [= <-]; repeat split. }
  constructor; [| constructor; [| constructor ]]; (split; [ reflexivity | split; [ reflexivity | split; [ apply F |]]]).
  - apply Permutation_refl.
  - apply Permutation_sym, Permutation_rev.
Qed.
Example C99_ex_block : block_bytes 65536 5001 = Some 60000 /\ 60000 = 24 * 2500 /\ 5001 * 24 / 2 = 60012.
Proof. repeat split; reflexivity. Qed.
