(** Evaluation of binary classifications on the graphics card: the compute shader of GLBinaryClassifierEvaluator (modules/datasets/src/eval.cpp:286-404), the
    buffer of atomic counters of GLImageProcEvaluatorAlgo (modules/utils/src/opengl-imgproc.cpp:546-790) and their use by the asynchronous evaluator
    (modules/datasets/include/litiv/datasets/eval.hpp:250-300). A shader invocation runs alone; the order of the invocations of a frame is arbitrary.
    Memory barriers, textures and display are not modelled. [None] is a failed assertion or a call the graphics library refuses. *)
From Coq Require Import ZArith List Bool.
From Verif Require Import Lib.Grid Model.Metrics.
Import ListNotations.
Open Scope Z_scope.

(** atomic counters are unsigned 32-bit integers *)
Definition wrap32 (v : Z) : Z := v mod 4294967296.
(** eval.cpp:317-346, the counters after one invocation; the region of interest is always an image (opengl-imgproc.cpp:593) *)
Definition gl_pixel (c : counters) (input gt roi : Z) : counters :=
  if negb (roi =? NEG) && negb (gt =? OUT) && negb (gt =? UNK) then
    let c := if input =? POS
             then if gt =? POS then Cnt (wrap32 (nTP c + 1)) (nTN c) (nFP c) (nFN c) (nSE c) (nDC c)
                               else Cnt (nTP c) (nTN c) (wrap32 (nFP c + 1)) (nFN c) (nSE c) (nDC c)
             else if gt =? POS then Cnt (nTP c) (nTN c) (nFP c) (wrap32 (nFN c + 1)) (nSE c) (nDC c)
                               else Cnt (nTP c) (wrap32 (nTN c + 1)) (nFP c) (nFN c) (nSE c) (nDC c) in
    if gt =? SHD then if input =? POS then Cnt (nTP c) (nTN c) (nFP c) (nFN c) (wrap32 (nSE c + 1)) (nDC c) else c else c
  else Cnt (nTP c) (nTN c) (nFP c) (nFN c) (nSE c) (wrap32 (nDC c + 1)).
(** eval.cpp:348-385, the colour written to the debug image (blue, green, red) *)
Definition gl_colour (input gt roi : Z) : Z * Z * Z :=
  if negb (gt =? OUT) && negb (gt =? UNK) && negb (roi =? NEG) then
    if input =? POS then
      if gt =? POS then (0, 255, 0) else if gt =? NEG then (0, 0, 255) else if gt =? SHD then (0, 128, 255) else (85, 85, 85)
    else if gt =? POS then (128, 0, 255) else (0, 0, 0)
  else if roi =? NEG then (128, 128, 128)
  else if input =? POS then (255, 255, 255) else (0, 0, 0).
(** imageLoad outside of an image gives 0 *)
Definition load (m : mat) (p : Z * Z) : Z :=
  if (0 <=? fst p) && (fst p <? mrows m) && (0 <=? snd p) && (snd p <? mcols m) then at_ m (fst p) (snd p) else 0.
(** opengl-imgproc.cpp:400-403 with work groups of 12 by 8 (opengl-imgproc.hpp:22): one invocation per pixel of the groups covering the frame *)
Definition round_up (v k : Z) : Z := k * ((v + k - 1) / k).
Definition invocations (h w : Z) : list (Z * Z) := grid 0 (round_up h 8) 0 (round_up w 12).
(** the counters of one frame after the invocations, from the values in the bound part of the buffer *)
Definition gl_frame (cl gt roi : mat) (order : list (Z * Z)) (c : counters) : counters :=
  fold_left (fun c p => gl_pixel c (load cl p) (load gt p) (load roi p)) order c.

(** ** The buffer of counters *)
(** six counters of four bytes (metrics.hpp:40-48, opengl-imgproc.cpp:552) *)
Definition frame_bytes : Z := 24.
(** opengl-imgproc.cpp:565-566 *)
Fixpoint halve (fuel : nat) (max cur : Z) : Z :=
  match fuel with O => cur | S f => if max <=? cur then halve f max (cur / 2) else cur end.
(** lines 555-569: bytes of the buffer on the card *)
Definition block_bytes (max frames : Z) : option Z :=
  let tot := frames * frame_bytes in
  if negb (frame_bytes <? max) || negb (0 <? frames) then None else
  Some (if max <=? tot then let c := halve (Z.to_nat (Z.log2 tot + 1)) max tot in c - c mod frame_bytes else tot).

(** rows in place of bytes: the buffer on the card, the next row in it, the row where it starts in the copy, the copy, and the number of frames so far *)
Record evaluator := Ev { on_card : list counters; next_row : nat; block_at : nat; copy : list counters; frames_done : nat }.
(** lines 646-661 *)
Definition gl_init (k total : nat) : evaluator := Ev (repeat zero_counters k) 0 0 (repeat zero_counters total) 0.
(** a copy of rows into a matrix; [None] is a write past its end *)
Definition write (l : list counters) (at_row : nat) (src : list counters) : option (list counters) :=
  if (at_row + length src <=? length l)%nat then Some (firstn at_row l ++ src ++ skipn (at_row + length src) l) else None.
(** lines 681-755: one frame, whose invocations turn the bound row into [f] of it; a full buffer is copied and cleared first *)
Definition gl_apply (k total : nat) (st : evaluator) (f : counters -> counters) : option evaluator :=
  if (total <=? frames_done st)%nat then None else
  let flushed :=
    if (k <? next_row st + 1)%nat then
      match write (copy st) (block_at st) (on_card st) with
      | Some c => Some (Ev (repeat zero_counters k) 0 (block_at st + k) c (frames_done st)) | None => None end
    else Some st in
  match flushed with
  | None => None
  | Some st =>
      if (next_row st + 1 <=? length (on_card st))%nat
      then Some (Ev (firstn (next_row st) (on_card st) ++ f (nth (next_row st) (on_card st) zero_counters) :: skipn (next_row st + 1) (on_card st))
                    (next_row st + 1) (block_at st) (copy st) (frames_done st + 1))
      else None
  end.
(** lines 573-580 *)
Definition gl_fetch (st : evaluator) : option evaluator :=
  match next_row st with
  | O => Some st
  | n => match write (copy st) (block_at st) (firstn n (on_card st)) with
         | Some c => Some (Ev (on_card st) (next_row st) (block_at st) c (frames_done st)) | None => None end
  end.
(** frames, readings of the counters, and resetMetrics, which leaves the card alone (eval.hpp:255-259) *)
Inductive op := Frame (f : counters -> counters) | Fetch | Reset.
Definition gl_op (k total : nat) (o : option evaluator) (x : op) : option evaluator :=
  match o with
  | None => None
  | Some st => match x with Frame f => gl_apply k total st f | Fetch => gl_fetch st | Reset => Some st end
  end.
Definition gl_run (k total : nat) (l : list op) : option evaluator := fold_left (gl_op k total) l (Some (gl_init k total)).
(** eval.cpp:389-402 *)
Definition gl_sum (st : evaluator) : counters := fold_left accumulate (copy st) zero_counters.
(** eval.hpp:267-276, what a batch reports once stopped *)
Definition gl_metrics (max frames : Z) (l : list op) : option counters :=
  match block_bytes max frames with
  | None => None
  | Some b => match gl_run (Z.to_nat (b / frame_bytes)) (Z.to_nat frames) (l ++ [Fetch]) with Some st => Some (gl_sum st) | None => None end
  end.
(** eval.hpp:273 with DATASETUTILS_VALIDATE_ASYNC_EVALUATORS: [cpu] are the counters of the callback (eval.hpp:308-312) *)
Definition validated (cpu gpu : counters) : bool := is_equal cpu gpu.
