(* C101: what the labels of the resegmentation of SegmMatcher cost: shapes, colours, the other camera, contours. *)
From Coq Require Import ZArith Reals List Bool Lia Lra.
From Verif Require Import Lib.Grid Model.ResegmGraph Spec.ResegmGraph Model.ResegmCosts Spec.ResegmCosts Proofs.ResegmCosts.
Open Scope R_scope.

(* the shape distances grow with the distance to the mask (and to its complement) up to 10, and are 0 exactly inside of it *)
Theorem C101_distance rows cols mask r c :
  (forall d, distance_to rows cols (fun y x => mask y x = true) r c d -> fg_dist rows cols mask r c = Rmin (exp (d / 10) - 1) 10) /\
  ((forall y x, in_image rows cols y x -> mask y x = false) -> fg_dist rows cols mask r c = 10) /\
  ((forall y x, in_image rows cols y x -> mask y x = true) -> bg_dist rows cols mask r c = 10) /\
  (in_image rows cols r c -> (fg_dist rows cols mask r c = 0 <-> mask r c = true) /\ (bg_dist rows cols mask r c = 0 <-> mask r c = false)).
Proof.
  destruct (shape_value rows cols mask r c) as (A & B & _). destruct (shape_value rows cols (fun y x => negb (mask y x)) r c) as (_ & D & _). split; [ exact A |]. split; [ exact B |]. split.
  - intro H. apply D. intros y x I. now rewrite (H y x I).
  - intro I. split; [ exact (shape_zero rows cols mask r c I) |]. rewrite <- negb_iff. exact (shape_zero rows cols (fun y x => negb (mask y x)) r c I).
Qed.
Print Assumptions C101_distance.

(* colours cost between 0 and 996, the bounds being those of densities that are all 1 or more and all 1e-10 or less, and larger
   densities never cost more *)
Theorem C101_color n m d r c : (0 <= color_cost n m d r c <= 996)%Z /\ ((forall y x, 1 <= d y x) -> color_cost n m d r c = 0%Z) /\ ((forall y x, d y x <= / 10000000000) -> color_cost n m d r c = 996%Z) /\
  forall e, (forall y x, d y x <= e y x) -> (color_cost n m e r c <= color_cost n m d r c)%Z.
Proof. exact (conj (color_range n m d r c) (conj (color_high n m d r c) (conj (color_low n m d r c) (fun e => color_mono n m d e r c)))). Qed.
Print Assumptions C101_color.

(* a matched pixel pays for its own distance, for its colour and half for the distance of its counterpart *)
Theorem C101_matched v layer cam r c x d e : partner v layer cam r c = Some x ->
  (distance_to (nrows v) (ncols v) (fun y z => mask v layer cam y z = true) r c d -> distance_to (nrows v) (ncols v) (fun y z => mask v layer (1 - cam) y z = true) r x e ->
   fg_cost v layer cam r c = (Int_part (200 * Rmin (exp (d / 10) - 1) 10) + color_cost (2 * nrows v) (ncols v) (dens_fg v cam) (layer * nrows v + r) c + Int_part (100 * Rmin (exp (e / 10) - 1) 10))%Z) /\
  (distance_to (nrows v) (ncols v) (fun y z => mask v layer cam y z = false) r c d -> distance_to (nrows v) (ncols v) (fun y z => mask v layer (1 - cam) y z = false) r x e ->
   bg_cost v layer cam r c = (Int_part (200 * Rmin (exp (d / 10) - 1) 10) + color_cost (2 * nrows v) (ncols v) (dens_bg v cam) (layer * nrows v + r) c + Int_part (100 * Rmin (exp (e / 10) - 1) 10))%Z).
Proof. exact (fun P => conj (matched_fg v layer cam r c x d e P) (matched_bg v layer cam r c x d e P)). Qed.
Print Assumptions C101_matched.

(* where both cameras agree, only the colour is paid for the label they agree on *)
Theorem C101_agreed v layer cam r c x : in_image (nrows v) (ncols v) r c -> partner v layer cam r c = Some x -> mask v layer cam r c = mask v layer (1 - cam) r x ->
  (mask v layer cam r c = true -> fg_cost v layer cam r c = color_cost (2 * nrows v) (ncols v) (dens_fg v cam) (layer * nrows v + r) c) /\
  (mask v layer cam r c = false -> bg_cost v layer cam r c = color_cost (2 * nrows v) (ncols v) (dens_bg v cam) (layer * nrows v + r) c).
Proof. exact (label_agreed v layer cam r c x). Qed.
Print Assumptions C101_agreed.

(* a pixel without counterpart prefers the background by 100, whatever its mask and colour *)
Theorem C101_unmatched v layer cam r c : partner v layer cam r c = None -> fg_cost v layer cam r c = 100%Z /\ bg_cost v layer cam r c = 0%Z.
Proof. exact (unmatched v layer cam r c). Qed.
Print Assumptions C101_unmatched.

(* so that even a pixel whose foreground costs nothing with a counterpart is background without one *)
Theorem C101_unmatched_refuted : exists v disp' r c, in_image (nrows v) (ncols v) r c /\ mask v 0 0 r c = true /\ (fg_cost v 0 0 r c < bg_cost v 0 0 r c)%Z /\
  (let w := Inputs (nrows v) (ncols v) (nreal v) (mind v) (roi v) (mask v) (dens_fg v) (dens_bg v) (grad v) (tdiff v) disp' in (bg_cost w 0 0 r c < fg_cost w 0 0 r c)%Z).
Proof. exact lost_without_partner. Qed.
Print Assumptions C101_unmatched_refuted.

Theorem C101_range v layer cam r c : (0 <= fg_cost v layer cam r c <= 3996)%Z /\ (0 <= bg_cost v layer cam r c <= 3996)%Z.
Proof. exact (label_range v layer cam r c). Qed.
Print Assumptions C101_range.

(* the counterpart lies at the disparity of the label in the region of the other camera *)
Theorem C101_partner v layer cam r c x : partner v layer cam r c = Some x <->
  (disp v layer cam r c < nreal v)%Z /\ (if (cam =? 0)%Z then c - x else x - c)%Z = (mind v + disp v layer cam r c)%Z /\ (0 <= x < ncols v)%Z /\ roi v (1 - cam)%Z r x = true.
Proof. exact (partner_spec v layer cam r c x). Qed.
Print Assumptions C101_partner.

(* of the other camera's view it is the other way round, if the labels agree *)
Theorem C101_back v layer cam r c x : (cam = 0 \/ cam = 1)%Z -> partner v layer cam r c = Some x -> disp v layer (1 - cam) r x = disp v layer cam r c -> (0 <= c < ncols v)%Z -> roi v cam r c = true ->
  partner v layer (1 - cam) r x = Some c.
Proof. exact (partner_back v layer cam r c x). Qed.
Print Assumptions C101_back.

(* different labels of neighbours cost nothing exactly where a gradient of at least 51 lies between them in either camera *)
Theorem C101_contours v layer cam h r c : (0 <= pair_weight v layer cam h r c)%Z /\ ((0 <= grad v layer cam h r c)%Z -> (pair_weight v layer cam h r c <= 500)%Z) /\
  (pair_weight v layer cam h r c = 0%Z <-> (51 <= grad v layer cam h r c)%Z \/ exists x, partner v layer cam r c = Some x /\ (51 <= grad v layer (1 - cam) h r x)%Z).
Proof. exact (conj (pair_nonneg v layer cam h r c) (conj (fun G => proj2 (pair_range v layer cam h r c G)) (pair_free v layer cam h r c))). Qed.
Print Assumptions C101_contours.

Theorem C101_smoother v w layer cam h r c : partner v layer cam r c = None -> partner w layer cam r c = None -> (grad v layer cam h r c <= grad w layer cam h r c)%Z ->
  (pair_weight w layer cam h r c <= pair_weight v layer cam h r c)%Z.
Proof. exact (pair_mono v w layer cam h r c). Qed.
Print Assumptions C101_smoother.

Theorem C101_temporal v cam r c : (0 <= temporal_weight v cam r c)%Z /\ (temporal_weight v cam r c = 0%Z <-> (51 <= tdiff v cam r c)%Z).
Proof. exact (conj (temporal_nonneg v cam r c) (temporal_free v cam r c)). Qed.
Print Assumptions C101_temporal.

(* the scenes that C86 speaks about are the ones of these costs *)
Theorem C101_sound v motion frames : (0 < nrows v)%Z -> (0 < ncols v)%Z -> sound_scene (scene_of v motion frames).
Proof. exact (scene_sound v motion frames). Qed.
Print Assumptions C101_sound.

(* both layers are blurred as one image: what a label costs in one frame depends on the densities of another *)
Theorem C101_layers_refuted : exists v d, (forall cam r c, (r < nrows v)%Z -> d cam r c = dens_fg v cam r c) /\
  (exists layer cam r c, layer = 0%Z /\ in_image (nrows v) (ncols v) r c /\ fg_cost (with_dens v d) layer cam r c <> fg_cost v layer cam r c).
Proof. exact layers_mixed. Qed.
Print Assumptions C101_layers_refuted.

Example C101_ex_partner : partner (Inputs 1 8 4 1 (fun _ _ _ => true) (fun _ _ _ _ => true) (fun _ _ _ => 1) (fun _ _ _ => 1) (fun _ _ _ _ _ => 0%Z) (fun _ _ _ => 0%Z) (fun _ _ _ _ => 2%Z)) 0 0 0 5 = Some 2%Z.
Proof. reflexivity. Qed.
Example C101_ex_distance : distance_to 1 3 (fun y x => (x =? 2)%Z = true) 0 0 2.
Proof.
  split; [ exists 0%Z, 2%Z | intros y x I T; apply Z.eqb_eq in T; unfold in_image in I; replace y with 0%Z by lia; rewrite T ]; [ split; [ unfold in_image; lia |]; split; [ reflexivity |] | apply Req_le ];
    unfold distance; cbn; (replace 4 with (2 * 2) by lra); symmetry; apply sqrt_square; lra.
Qed.
Example C101_ex_flat : fg_cost flat 0 0 0 0 = 0%Z /\ bg_cost flat 0 0 0 0 = 3000%Z.
Proof. exact flat_costs. Qed.
