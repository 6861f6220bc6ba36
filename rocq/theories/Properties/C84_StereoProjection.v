(* C84: the disparities of the second camera of SegmMatcher are projected from those of the first one. *)
From Coq Require Import ZArith List Bool Lia.
From Verif Require Import Lib.Grid Model.FusionTerms Model.StereoMoves Spec.StereoMoves Model.StereoProjection Spec.StereoProjection.
From Verif Require Proofs.StereoProjection.
Import ListNotations.
Open Scope Z_scope.

(* The projection always succeeds. Before smoothing, each pixel of the region has the largest disparity among the pixels
   matched to it, or is occluded; after smoothing, exactly the holes are filled, each one from its own row. Every label
   is in range and no pixel of the region is left without label. *)
Theorem C84_projection : forall s roi base, sound s -> (forall i, 0 <= base i) ->
  exists p f, project s roi base = Some p /\ projection s roi base = Some f /\
    (forall row x, 0 <= row < rows s -> 0 <= x < cols s -> (roi (row * cols s + x) = true -> nearest_surface s base row x (p (row * cols s + x))) /\ (roi (row * cols s + x) = false -> p (row * cols s + x) = dontcare s)) /\
    filled s roi (median s p) f /\
    (forall row x, 0 <= row < rows s -> 0 <= x < cols s -> 0 <= f (row * cols s + x) < nlabels s /\ (roi (row * cols s + x) = true -> f (row * cols s + x) <> dontcare s)).
Proof. exact StereoProjection.projection_ok. Qed.
Print Assumptions C84_projection.

(* A run of holes takes the label of the pixel at its right end, however long it is. *)
Theorem C84_run : forall s roi l f row x n, 1 <= maxd s -> filled s roi l f -> 0 <= row < rows s -> 0 <= x -> 0 <= n -> x + n < cols s ->
  (forall c, x <= c <= x + n -> roi (row * cols s + c) = true) -> (forall c, x <= c < x + n -> l (row * cols s + c) = dontcare s) ->
  f (row * cols s + x) = f (row * cols s + (x + n)).
Proof. exact StereoProjection.hole_run. Qed.
Print Assumptions C84_run.

(* A pixel matched only with disparity 1 can end with disparity 0: at the edge of a region the median brings labels in from outside of it. *)
Theorem C84_match_kept_refuted : exists s roi base p f, sound s /\ (forall i, 0 <= base i < nlabels s) /\ project s roi base = Some p /\ projection s roi base = Some f /\
  exists row x, 0 <= row < rows s /\ 0 <= x < cols s /\ roi (row * cols s + x) = true /\ matched_by s base row x 1 /\ p (row * cols s + x) = 1 /\ ~ matched_by s base row x 0 /\ f (row * cols s + x) = 0.
Proof. exact StereoProjection.median_erases. Qed.
Print Assumptions C84_match_kept_refuted.

(* Although occluded labels are switched off, the result can hold them. *)
Theorem C84_no_occluded_refuted : exists s roi base f, sound s /\ (forall i, 0 <= base i < nlabels s) /\ projection s roi base = Some f /\
  exists row x, 0 <= row < rows s /\ 0 <= x < cols s /\ roi (row * cols s + x) = true /\ real_label s (f (row * cols s + x)) = Some occluded_label.
Proof. exact StereoProjection.left_occluded. Qed.
Print Assumptions C84_no_occluded_refuted.

(* The occlusion map: before smoothing, exactly the pixels of the region that no pixel of the other image is matched to are
   marked; after smoothing, those with at least 13 marks among the 25 pixels around them. *)
Theorem C84_occlusions : forall s roi base, sound s -> (forall i, 0 <= base i) -> exists o f, marks s roi base = Some o /\ occlusions s roi base = Some f /\
  (forall row x, 0 <= row < rows s -> 0 <= x < cols s -> (o (row * cols s + x) = 255 <-> roi (row * cols s + x) = true /\ unmatched s base row x)) /\
  (forall row x, 0 <= row < rows s -> 0 <= x < cols s -> (f (row * cols s + x) = 0 \/ f (row * cols s + x) = 255) /\ (f (row * cols s + x) = 255 <-> 13 <= around s (fun i => 255 =? o i) row x)).
Proof. exact StereoProjection.occlusions_ok. Qed.
Print Assumptions C84_occlusions.

(* So a pixel that nothing is matched to can end unmarked. *)
Theorem C84_occlusions_refuted : exists s roi base f, sound s /\ (forall i, 0 <= base i < nlabels s) /\ occlusions s roi base = Some f /\
  exists row x, 0 <= row < rows s /\ 0 <= x < cols s /\ roi (row * cols s + x) = true /\ unmatched s base row x /\ f (row * cols s + x) = 0.
Proof. exact StereoProjection.lone_occlusion. Qed.
Print Assumptions C84_occlusions_refuted.

(* a row of four pixels: the last two are matched, both to the second column, and the larger disparity wins *)
Definition four : setup := Setup 1 4 0 3 false (fun _ => true) (fun _ _ => 0) (fun _ => []) real_add (approx_rem real_add).
Definition four_base (i : Z) : Z := nth (Z.to_nat i) [3; 3; 1; 2] 3.
Example C84_ex_project : sound four /\ option_map (fun p => map p [0; 1; 2; 3]) (project four (fun _ => true) four_base) = Some [4; 2; 4; 4].
Proof. split; [ unfold sound; cbn; repeat split; try lia; intros i c [] | vm_compute; reflexivity ]. Qed.
(* holes between labels take the one on the right, and those on the right end the one on the left *)
Example C84_ex_fill : map (fill four (fun _ => true) (fun i => nth (Z.to_nat i) [1; 3; 2; 3] 3)) [0; 1; 2; 3] = [1; 2; 2; 2].
Proof. vm_compute. reflexivity. Qed.
Example C84_ex_run : 1 <= maxd four /\ map (fill four (fun _ => true) (fun i => if i =? 3 then 1 else 3)) [0; 1; 2; 3] = [1; 1; 1; 1].
Proof. split; [ unfold maxd; cbn; lia | vm_compute; reflexivity ]. Qed.
(* the marks of the same labels: the first, third and fourth pixel *)
Example C84_ex_marks : sound four /\ option_map (fun p => map p [0; 1; 2; 3]) (marks four (fun _ => true) four_base) = Some [255; 0; 255; 255].
Proof. split; [ unfold sound; cbn; repeat split; try lia; intros i c [] | vm_compute; reflexivity ]. Qed.
