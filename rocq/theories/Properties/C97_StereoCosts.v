(* C97: the costs of the stereo graph of SegmMatcher, and the disparities that a frame starts from. *)
From Coq Require Import ZArith QArith List Bool Lia Lqa.
From Verif Require Import Lib.Grid Model.FusionTerms Spec.FusionTerms Model.StereoMoves Spec.StereoMoves Model.StereoCosts Spec.StereoCosts.
From Verif Require Proofs.StereoCosts.
Import ListNotations.
Open Scope Z_scope.

(* A disparity that leads into the region of the other camera has the cost of its match; one that does not has the sum of the costs
   of the matching disparities before it, divided by their number plus one; both special labels cost 10000. *)
Theorem C97_unary : forall s f i, geometry s -> In i (pixels s) -> affinities s f i ->
  exists u, unary_costs s f i = Some u /\ (forall l, unary (stereo_model s f) i l = u l) /\
    (forall l, matches s f i l -> match_cost s f i l (u l) /\ 0 <= u l) /\
    (forall l ms, 0 <= l < nreal s -> ~ matches s f i l -> earlier s f i l ms -> u l = total (map u ms) / (Z.of_nat (length ms) + 1) /\ 0 <= u l) /\
    u (nreal s) = 10000 /\ u (nreal s + 1) = 10000.
Proof. exact StereoCosts.unary_ok. Qed.
Print Assumptions C97_unary.

(* The cost of a match exists, and is determined by the affinities, the saliencies and the median. *)
Theorem C97_match_cost : forall s f i l, affinities s f i -> 0 <= l < nreal s ->
  exists v, match_cost s f i l v /\ forall w, match_cost s f i l w -> w = v.
Proof. intros s f i l A H. destruct (StereoCosts.match_cost_exists s f i l A H) as (v & V). exists v. split; [ exact V |]. intros w W. exact (StereoCosts.match_cost_unique s f i l w v W V). Qed.
Print Assumptions C97_match_cost.

(* The graph with these costs meets what the fusion moves ask of it (C81 to C84). *)
Theorem C97_sound : forall s f, geometry s -> sound (stereo_model s f).
Proof. exact StereoCosts.model_sound. Qed.
Print Assumptions C97_sound.

(* Exactly the neighbours within the region are paired, each pair once. *)
Theorem C97_pairs : forall s f, geometry s -> NoDup (all_pairs s f) /\
  forall p, In p (all_pairs s f) <-> exists i j, p = [i; j] /\ In i (pixels s) /\ In j (pixels s) /\ neighbours s i j.
Proof. intros s f G. split; [ now apply StereoCosts.all_pairs_once | intros p; now apply StereoCosts.all_pairs_iff ]. Qed.
Print Assumptions C97_pairs.

(* A pair costs the square of the difference of its labels, cut at a limit and weighed. *)
Theorem C97_pair_costs : forall s f i c a b, geometry s -> weights f -> In c (cliques (stereo_model s f) i) -> exists w, (0 <= w)%Q /\
  (0 <= a < nreal s -> 0 <= b < nreal s -> whole (w * inject_Z (Z.min (Z.abs (a - b)) (Z.max 10 ((mind s + nreal s - 1) / 8)) ^ 2))%Q (cost c [a; b])) /\
  (0 <= a < nreal s -> whole (w * 10000)%Q (cost c [a; nreal s]) /\ whole (w * 10000)%Q (cost c [nreal s; a]) /\ cost c [a; nreal s + 1] = 0 /\ cost c [nreal s + 1; a] = 0) /\
  cost c [nreal s; nreal s] = 0 /\ cost c [nreal s + 1; nreal s + 1] = 0.
Proof. exact StereoCosts.pair_costs. Qed.
Print Assumptions C97_pair_costs.

(* When all disparities of a pixel lead into the other region, it starts from the first of the cheapest ones. *)
Theorem C97_start_best : forall s f i st, geometry s -> In i (pixels s) -> bounded s f i -> (forall l, 0 <= l < nreal s -> matches s f i l) -> reset (stereo_model s f) None = Some st ->
  0 <= lab st i < nreal s /\ forall l v w, match_cost s f i (lab st i) v -> match_cost s f i l w -> (0 <= l < nreal s -> v <= w) /\ (0 <= l < lab st i -> v < w).
Proof. exact StereoCosts.start_best. Qed.
Print Assumptions C97_start_best.

(* In any case it starts from a disparity, not from a special label. *)
Theorem C97_start_real : forall s f i st, geometry s -> In i (pixels s) -> bounded s f i -> reset (stereo_model s f) None = Some st -> 0 <= lab st i < nreal s.
Proof. exact StereoCosts.start_real. Qed.
Print Assumptions C97_start_real.

(* A pixel whose smallest disparity leads out of the other region starts from this disparity, whatever the other ones are worth. *)
Theorem C97_start_first : forall s f i st, geometry s -> In i (pixels s) -> affinities s f i -> ~ matches s f i 0 -> reset (stereo_model s f) None = Some st -> lab st i = 0.
Proof. exact StereoCosts.start_first. Qed.
Print Assumptions C97_start_first.

(* A disparity that leads out of the region wins when no match costs less than the mean by more than one part in their number plus one. *)
Theorem C97_start_unmatched : forall s f i st l ms, geometry s -> In i (pixels s) -> affinities s f i -> 0 <= l < nreal s -> ~ matches s f i l -> earlier s f i l ms ->
  (forall k, matches s f i k -> total (map (unary (stereo_model s f) i) ms) < (Z.of_nat (length ms) + 1) * unary (stereo_model s f) i k) ->
  reset (stereo_model s f) None = Some st -> ~ matches s f i (lab st i).
Proof. exact StereoCosts.start_unmatched. Qed.
Print Assumptions C97_start_unmatched.

(* A pixel with a perfect match can start without match. *)
Theorem C97_perfect_match_refuted : exists s f i l st, geometry s /\ accepts s f = true /\ In i (pixels s) /\ bounded s f i /\ matches s f i l /\ match_cost s f i l 0 /\ reset (stereo_model s f) None = Some st /\ ~ matches s f i (lab st i).
Proof. exact StereoCosts.edge_refutes. Qed.
Print Assumptions C97_perfect_match_refuted.

(* The same with equal regions: a pixel without texture near the border starts outside of the other image. *)
Theorem C97_no_texture_refuted : exists s f i st, geometry s /\ accepts s f = true /\ (forall j, other f j = inside s j) /\ In i (pixels s) /\ bounded s f i /\
  matches s f i 0 /\ (forall k l, img_aff f i k = img_aff f i l /\ shp_aff f i k = shp_aff f i l) /\ reset (stereo_model s f) None = Some st /\ ~ matches s f i (lab st i).
Proof. exact StereoCosts.flat_refutes. Qed.
Print Assumptions C97_no_texture_refuted.

(* Different disparities of neighbours can be free although the weight of the pair is not zero: costs lose their fractions. *)
Theorem C97_free_step_refuted : exists s f i c a b, geometry s /\ (forall i o, (0 < weight f i o)%Q) /\ In c (cliques (stereo_model s f) i) /\ 0 <= a < nreal s /\ 0 <= b < nreal s /\ a <> b /\ cost c [a; b] = 0.
Proof. exact StereoCosts.free_step. Qed.
Print Assumptions C97_free_step_refuted.

(* Costs of pairs are not a distance: two small steps cost less than a large one. *)
Theorem C97_metric_refuted : exists s f i c a b d, geometry s /\ weights f /\ In c (cliques (stereo_model s f) i) /\ 0 <= a < nreal s /\ 0 <= b < nreal s /\ 0 <= d < nreal s /\ cost c [a; b] + cost c [b; d] < cost c [a; d].
Proof. exact StereoCosts.not_metric. Qed.
Print Assumptions C97_metric_refuted.

(* Both regions need at least two pixels, and must not be the whole image. *)
Theorem C97_accepts : forall s f, accepts s f = true <-> forall r, r = inside s \/ r = other f -> 1 < count r (zrange 0 (rows s * cols s)) < rows s * cols s.
Proof. exact StereoCosts.accepts_iff. Qed.
Print Assumptions C97_accepts.
Theorem C97_whole_image_refuted : forall s f, 0 < rows s -> 0 < cols s -> (forall i, 0 <= i < rows s * cols s -> inside s i = true) -> accepts s f = false.
Proof. exact StereoCosts.whole_rejected. Qed.
Print Assumptions C97_whole_image_refuted.

(* two rows of four pixels without the last one; two disparities, image affinities 0.0345 and 0.02, a shape whose median is the first *)
Definition small : setup := Setup 2 4 0 2 true (fun i => negb (i =? 7)) (fun _ _ => 0) (fun _ => []) real_add (approx_rem real_add).
Definition small_f : features := Features (fun _ l => if l =? 0 then 345#10000 else 2#100) (fun _ _ => 0%Q) (fun _ => 1%Q) (fun _ => 1%Q) (fun i => if i =? 1 then 1 else 0) (fun _ => 0) (fun i => negb (i =? 7)) (fun _ _ => 15#10).
Example C97_ex_small : geometry small /\ accepts small small_f = true /\ In 1 (pixels small) /\ bounded small small_f 1 /\ weights small_f.
Proof. split; [ unfold geometry; cbn; lia |]. split; [ reflexivity |]. split; [ vm_compute; auto |]. split; [| intros i o; cbn; lra ]. unfold bounded. cbn. repeat split; try lra; try lia; destruct (l =? 0); lra. Qed.
(* pixel 0 has costs 34 and 20, pixel 1 has 34 and 40, pixel 3 has one match only, and the unmatched disparity costs half of it *)
Example C97_ex_unary : map (fun i => option_map (fun u => map u [0; 1; 2; 3]) (unary_costs small small_f i)) [0; 1; 3] = [Some [34; 20; 10000; 10000]; Some [34; 40; 10000; 10000]; Some [34; 17; 10000; 10000]].
Proof. vm_compute. reflexivity. Qed.
Example C97_ex_start : option_map (fun st => map (lab st) [0; 1; 2; 3; 4; 5; 6]) (reset (stereo_model small small_f) None) = Some [1; 0; 1; 1; 1; 1; 1].
Proof. vm_compute. reflexivity. Qed.
Example C97_ex_pairs : all_pairs small small_f = [[0; 4]; [0; 1]; [1; 5]; [1; 2]; [2; 6]; [2; 3]; [4; 5]; [5; 6]].
Proof. vm_compute. reflexivity. Qed.
Example C97_ex_pair_cost : map (fun c => map (cost c) [[0; 0]; [0; 1]; [1; 0]; [2; 1]; [3; 1]]) (pairs small small_f 4) = [[0; 1; 1; 15000; 0]].
Proof. vm_compute. reflexivity. Qed.
