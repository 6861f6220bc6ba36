(* C83: SegmMatcher gives out positions in its list of disparities, not disparities. *)
From Coq Require Import ZArith List Bool Lia.
From Verif Require Import Lib.Grid Model.FusionTerms Spec.FusionTerms Model.StereoMoves Spec.StereoMoves.
From Verif Require Proofs.StereoOutputs.
Import ListNotations.
Open Scope Z_scope.

(* what getLabels returns: the disparities from the smallest to the largest *)
Definition labels (lo n : Z) : list Z := zrange lo n.

(* The constructor accepts two bounds, in any order, when they differ and at most 253 disparities lie between them. *)
Theorem C83_construct : forall mn mx, 0 <= mn -> 0 <= mx ->
  (forall lo n, construct mn mx = Some (lo, n) <-> lo = Z.min mn mx /\ n = Z.max mn mx - lo + 1 /\ 2 <= n <= 253 /\ Z.max mn mx < 2147483647).
Proof. exact StereoOutputs.construct_is. Qed.
Print Assumptions C83_construct.

(* A disparity given out stands for the smallest disparity plus what was given out. *)
Theorem C83_position : forall s st i, sound s -> reached s st -> In i (pixels s) -> output st i < nreal s ->
  real_label s (output st i) = Some (mind s + output st i) /\ In (mind s + output st i) (labels (mind s) (nreal s)).
Proof. exact StereoOutputs.position. Qed.
Print Assumptions C83_position.

(* What is given out is the disparity itself exactly when the smallest disparity is zero. *)
Theorem C83_zero_offset : forall s st i, sound s -> reached s st -> In i (pixels s) -> output st i < nreal s -> (real_label s (output st i) = Some (output st i) <-> mind s = 0).
Proof. exact StereoOutputs.zero_offset. Qed.
Print Assumptions C83_zero_offset.

(* With disparities from 10 to 20, a pixel whose disparity is 10 is given out as 0, which is no label; and a pixel without disparity is given out as 11, which is one. *)
Theorem C83_outputs_refuted : exists s st i j, construct 10 20 = Some (mind s, nreal s) /\ sound s /\ reached s st /\ In i (pixels s) /\ In j (pixels s) /\
  real_label s (lab st i) = Some 10 /\ ~ In (output st i) (labels (mind s) (nreal s)) /\ output st i <> dont_care_label /\ output st i <> occluded_label /\
  real_label s (lab st j) = Some dont_care_label /\ In (output st j) (labels (mind s) (nreal s)).
Proof. exact StereoOutputs.outputs_wrong. Qed.
Print Assumptions C83_outputs_refuted.

(* In debug builds no real label has an internal one, so that no labeling can be set as a starting point. *)
Theorem C83_starting_point_refuted : forall s r, 0 <= mind s -> maxd s < occluded_label -> internal_label s r = None.
Proof. exact StereoOutputs.no_internal_label. Qed.
Print Assumptions C83_starting_point_refuted.

Example C83_ex_construct : construct 20 10 = Some (10, 11) /\ construct 5 5 = None /\ construct 0 253 = None.
Proof. repeat split. Qed.
