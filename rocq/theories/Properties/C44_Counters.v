(** C44: counters of a binary classification. *)
From Coq Require Import ZArith List Bool Permutation.
From Verif Require Import Lib.Grid Model.Metrics Spec.Metrics Spec.MetricsTree Proofs.Metrics.
Import ListNotations.
Open Scope Z_scope.

(** each counter grows by the number of pixels of its class, the classes partition the image, shadow errors are false positives; the counters wrap at 2^64 *)
Theorem C44_counts : forall c cl g roi, good c -> frame_ok cl (Some g) roi ->
  let cnt k := count (fun p => class_eqb (classify (at_ cl (fst p) (snd p)) (at_ g (fst p) (snd p)) (match roi with None => true | Some r => negb (at_ r (fst p) (snd p) =? 0) end)) k) (grid 0 (mrows cl) 0 (mcols cl)) in
  let se := count (fun p => shadow_error (at_ cl (fst p) (snd p)) (at_ g (fst p) (snd p)) (match roi with None => true | Some r => negb (at_ r (fst p) (snd p) =? 0) end)) (grid 0 (mrows cl) 0 (mcols cl)) in
  accumulate_mats c cl (Some g) roi =
    Some (Cnt (wrap (nTP c + cnt TruePos)) (wrap (nTN c + cnt TrueNeg)) (wrap (nFP c + cnt FalsePos)) (wrap (nFN c + cnt FalseNeg)) (wrap (nSE c + se)) (wrap (nDC c + cnt DontCare))) /\
  cnt TruePos + cnt TrueNeg + cnt FalsePos + cnt FalseNeg + cnt DontCare = mrows cl * mcols cl /\ se <= cnt FalsePos.
Proof. exact accumulate_counts. Qed.
Print Assumptions C44_counts.
Theorem C44_no_ground_truth : forall c cl roi, frame_ok cl None roi ->
  accumulate_mats c cl None roi = Some (Cnt (nTP c) (nTN c) (nFP c) (nFN c) (nSE c) (wrap (nDC c + mrows cl * mcols cl))).
Proof. exact accumulate_no_gt. Qed.
Print Assumptions C44_no_ground_truth.

(** counting into counters is counting from zero and adding; accumulation is commutative and associative *)
Theorem C44_additive : forall c cl gt roi, good c -> accumulate_mats c cl gt roi =
  match accumulate_mats zero_counters cl gt roi with Some d => Some (accumulate c d) | None => None end.
Proof. exact mats_additive. Qed.
Print Assumptions C44_additive.
(** counters compare equal when all six of them are *)
Theorem C44_equal : forall a b, is_equal a b = true <-> nTP a = nTP b /\ nTN a = nTN b /\ nFP a = nFP b /\ nFN a = nFN b /\ nSE a = nSE b /\ nDC a = nDC b.
Proof. exact equal_iff. Qed.
Print Assumptions C44_equal.
Theorem C44_commutative : forall a b, accumulate a b = accumulate b a.
Proof. exact accumulate_comm. Qed.
Print Assumptions C44_commutative.
Theorem C44_associative : forall a b c, accumulate (accumulate a b) c = accumulate a (accumulate b c).
Proof. exact accumulate_assoc. Qed.
Print Assumptions C44_associative.
(** so a sequence of frames gives the same counters in any order *)
Theorem C44_order : forall c l l', good c -> Permutation l l' -> accumulate_frames c l = accumulate_frames c l'.
Proof. exact frames_order. Qed.
Print Assumptions C44_order.

(** the coloured mask shows the classes *)
Theorem C44_colours : forall i g r, 0 <= i <= 255 -> In g [0; 50; 85; 170; 255] ->
  let in_roi := match r with None => true | Some v => negb (v =? 0) end in
  (colour i g r = (0, 255, 0) <-> classify i g in_roi = TruePos) /\
  (colour i g r = (127, 0, 255) <-> classify i g in_roi = FalseNeg) /\
  (colour i g r = (0, 0, 255) \/ colour i g r = (0, 127, 255) <-> classify i g in_roi = FalsePos) /\
  (colour i g r = (0, 127, 255) <-> shadow_error i g in_roi = true) /\
  (classify i g in_roi = TrueNeg -> colour i g r = (0, 0, 0)).
Proof. exact colour_meaning. Qed.
Print Assumptions C44_colours.

(** a region of interest whose rows are further apart than its width (a submatrix) is accepted, and pixels outside of it are scored: the assertion at
    metrics.cpp:24 tests the ground truth instead *)
Theorem C44_strided_roi_refuted : exists cl g r c', frame_ok cl (Some g) None /\ mrows r = mrows cl /\ mcols r = mcols cl /\
  (forall i j, 0 <= i < 2 -> 0 <= j < 2 -> at_ r i j = (if i =? 0 then 255 else 0)) /\
  accumulate_mats zero_counters cl (Some g) (Some r) = Some c' /\ nTP c' = 4 /\ nDC c' = 0 /\
  count (fun p => class_eqb (classify (at_ cl (fst p) (snd p)) (at_ g (fst p) (snd p)) (negb (at_ r (fst p) (snd p) =? 0))) TruePos) (grid 0 2 0 2) = 2.
Proof.
  exists (Mat 2 2 2 (fun _ => 255)), (Mat 2 2 2 (fun _ => 255)), (Mat 2 2 4 (fun a => if a <? 4 then 255 else 0)), (Cnt 4 0 0 0 0 0).
  split. { repeat split; try (cbn; congruence). - inversion H; reflexivity. - inversion H; reflexivity. - inversion H; reflexivity. }
  split; [ reflexivity |]. split; [ reflexivity |]. split; [| repeat split; reflexivity ].
  intros i j I J. unfold at_. cbn [mdata mstep]. destruct (Z.eqb_spec i 0), (Z.ltb_spec (i * 4 + j) 4); auto; exfalso; revert I J n H || revert I J e H; Lia.lia.
Qed.
Print Assumptions C44_strided_roi_refuted.

(** a 2x3 frame with every class *)
Example C44_ex : exists cl g r, frame_ok cl (Some g) (Some r) /\ accumulate_mats zero_counters cl (Some g) (Some r) = Some (Cnt 1 1 1 1 1 2).
Proof.
  exists (Mat 2 3 3 (fun a => nth (Z.to_nat a) [255; 0; 255; 0; 255; 255] 0)), (Mat 2 3 3 (fun a => nth (Z.to_nat a) [255; 0; 50; 255; 85; 255] 0)), (Mat 2 3 3 (fun a => nth (Z.to_nat a) [255; 255; 1; 255; 255; 0] 0)).
  split; [| vm_compute; reflexivity ]. repeat split; try (cbn; congruence); inversion H; reflexivity.
Qed.
