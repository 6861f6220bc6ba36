(** What the card should count: the frames, as the processor counts them. *)
From Coq Require Import ZArith List Bool Permutation.
From Verif Require Import Lib.Grid Model.Metrics Model.GlEval Spec.MetricsTree.
Import ListNotations.
Open Scope Z_scope.

(** the frames among the operations *)
Definition frames_of (l : list op) : list (counters -> counters) := flat_map (fun x => match x with Frame f => [f] | _ => [] end) l.
(** a classification, its ground truth, and some order of the invocations *)
Record gl_input := In_ { classif : mat; truth : mat; order : list (Z * Z) }.
Definition input_ok (h w : Z) (roi : mat) (x : gl_input) : Prop :=
  mrows (classif x) = h /\ mcols (classif x) = w /\ frame_ok (classif x) (Some (truth x)) (Some roi) /\ Permutation (order x) (invocations h w).
Definition as_op (roi : mat) (x : gl_input) : op := Frame (gl_frame (classif x) (truth x) roi (order x)).
Definition as_frame (roi : mat) (x : gl_input) : frame := (classif x, Some (truth x), Some roi).
(** invocations beyond the frame *)
Definition padding (h w : Z) : Z := (8 * ((h + 7) / 8)) * (12 * ((w + 11) / 12)) - h * w.
