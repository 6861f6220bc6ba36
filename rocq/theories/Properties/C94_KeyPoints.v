(* C94: which keypoints are kept, where they are described, and where their descriptors are put back. *)
From Coq Require Import ZArith QArith List Lia.
From Verif Require Import Lib.Grid Model.KeyPoints Spec.KeyPoints Proofs.KeyPoints.
Import ListNotations.
Open Scope Z_scope.

(* A keypoint at whole coordinates is kept exactly when it was given and the neighbourhood of its descriptor lies in the image. *)
Theorem C94_border : forall rows cols b kps r c, 0 < b -> (In (at_pixel r c) (run_by_border rows cols b kps) <-> In (at_pixel r c) kps /\ fits rows cols b r c).
Proof. exact border_exact. Qed.
Print Assumptions C94_border.
(* A keypoint is kept exactly when it was given and the neighbourhood around its rounded position lies in the image; halves go to the even neighbour. *)
Theorem C94_rounded : forall rows cols b kps k r c, 0 < b -> rounded (ky k) r -> rounded (kx k) c -> (In k (run_by_border rows cols b kps) <-> In k kps /\ fits rows cols b r c).
Proof. exact border_rounded. Qed.
Print Assumptions C94_rounded.
(* Nothing is added, and what is kept keeps its order. *)
Theorem C94_order : forall rows cols b kps, exists p, run_by_border rows cols b kps = filter p kps.
Proof. exact border_sublist. Qed.
Print Assumptions C94_order.
(* A kept keypoint is described within the image exactly when neither of its coordinates is below the border. *)
Theorem C94_kept : forall rows cols b kps k, 0 < b -> In k (run_by_border rows cols b kps) ->
  (fits rows cols b (fst (place k)) (snd (place k)) <-> (inject_Z b <= kx k)%Q /\ (inject_Z b <= ky k)%Q).
Proof. exact kept_ok. Qed.
Print Assumptions C94_kept.
(* The descriptors of the kept keypoints can be computed exactly when none of them is in the half pixel before the border. *)
Theorem C94_rows : forall rows cols b kps, 0 < b ->
  (compute_rows rows cols b (run_by_border rows cols b kps) <> None <-> forall k, In k (run_by_border rows cols b kps) -> (inject_Z b <= kx k)%Q /\ (inject_Z b <= ky k)%Q).
Proof. exact compute_rows_spec. Qed.
Print Assumptions C94_rows.
(* The filter rounds and the extractor truncates: a keypoint that was kept is described with pixels outside of the image. *)
Theorem C94_fraction_refuted : exists rows cols b k, 0 < b /\ run_by_border rows cols b [k] = [k] /\ ~ fits rows cols b (fst (place k)) (snd (place k)) /\ detect rows cols b None (Some [k]) = ([k], None).
Proof. exact fraction_refuted. Qed.
Print Assumptions C94_fraction_refuted.
(* Every keypoint that the mutual information extractor validates is accepted by its computation, whatever its fraction. *)
Theorem C94_mi_sound : forall rows cols h w kps k, 0 < h -> 0 < w -> h mod 2 = 1 -> w mod 2 = 1 -> In k (mi_validate rows cols h w kps) -> mi_accepts rows cols h w k = true.
Proof. exact mi_sound. Qed.
Print Assumptions C94_mi_sound.
(* The computation accepts a keypoint exactly when the window around its rounded position lies in the image. *)
Theorem C94_mi_accepts : forall rows cols h w k, 0 < h -> 0 < w -> h mod 2 = 1 -> w mod 2 = 1 ->
  (mi_accepts rows cols h w k = true <-> window_fits rows cols h w (away (ky k)) (away (kx k))).
Proof. exact mi_spec. Qed.
Print Assumptions C94_mi_accepts.
(* The validation removes every computable keypoint that is nearer to the border than the whole window, not only half of it. *)
Theorem C94_mi_refuted : forall rows cols h w r c, 0 < h -> 0 < w -> h mod 2 = 1 -> w mod 2 = 1 -> window_fits rows cols h w r c ->
  (r < Z.max w h \/ rows - Z.max w h <= r \/ c < Z.max w h \/ cols - Z.max w h <= c) ->
  mi_accepts rows cols h w (at_pixel r c) = true /\ forall kps, ~ In (at_pixel r c) (mi_validate rows cols h w kps).
Proof. exact mi_loses. Qed.
Print Assumptions C94_mi_refuted.
(* Without given keypoints and mask, the rows are the inner pixels in row-major order. *)
Theorem C94_all : forall rows cols b, 0 < b ->
  detect rows cols b None None = (map (fun p => at_pixel (fst p) (snd p)) (grid b (rows - 2 * b) b (cols - 2 * b)), Some (grid b (rows - 2 * b) b (cols - 2 * b))).
Proof. exact detect_all. Qed.
Print Assumptions C94_all.
(* There is one row per inner pixel. *)
Theorem C94_count : forall rows cols b, 0 < b -> 2 * b < rows -> 2 * b < cols -> Z.of_nat (length (fst (detect rows cols b None None))) = (rows - 2 * b) * (cols - 2 * b).
Proof. exact detect_count. Qed.
Print Assumptions C94_count.
(* These rows can never be brought back to the size of the image. *)
Theorem C94_reshape_refuted : forall rows cols b, 0 < b -> 2 * b < rows -> 2 * b < cols -> reshape rows cols (Z.of_nat (length (fst (detect rows cols b None None)))) = None.
Proof. exact reshape_full. Qed.
Print Assumptions C94_reshape_refuted.
(* They can be brought to the size of the inner image, and the descriptor of pixel (r,c) is then at (r-b,c-b). *)
Theorem C94_reshape : forall rows cols b r c, 0 < b -> fits rows cols b r c ->
  reshape (rows - 2 * b) (cols - 2 * b) (Z.of_nat (length (fst (detect rows cols b None None)))) = Some (cols - 2 * b) /\
  exists l, snd (detect rows cols b None None) = Some l /\ nth_error l (Z.to_nat ((r - b) * (cols - 2 * b) + (c - b))) = Some (r, c).
Proof. exact reshape_inner. Qed.
Print Assumptions C94_reshape.
(* A keypoint at whole coordinates that passes the mask is described at a pixel of the mask. *)
Theorem C94_mask : forall rows cols b mask kps k, 0 < b -> whole k -> In k (fst (detect rows cols b (Some mask) (Some kps))) -> mask (fst (place k)) (snd (place k)) = true.
Proof. exact mask_whole. Qed.
Print Assumptions C94_mask.
(* One at fractional coordinates can be described at a pixel that the mask excludes. *)
Theorem C94_mask_refuted : exists rows cols b mask k, 0 < b /\ fst (detect rows cols b (Some mask) (Some [k])) = [k] /\ snd (detect rows cols b (Some mask) (Some [k])) = Some [place k] /\
  mask (fst (place k)) (snd (place k)) = false.
Proof. exact mask_refuted. Qed.
Print Assumptions C94_mask_refuted.
(* The DASC extractor ignores the keypoints it is given for a map, and returns all the inner pixels in their place. *)
Theorem C94_dasc_refuted : forall rows cols reach kps kps', 0 < reach -> dasc_keypoints rows cols reach kps = dasc_keypoints rows cols reach kps' /\
  dasc_keypoints rows cols reach kps = map (fun p => at_pixel (fst p) (snd p)) (grid reach (rows - 2 * reach) reach (cols - 2 * reach)).
Proof. exact dasc_ignores. Qed.
Print Assumptions C94_dasc_refuted.
(* LBSP descriptors of distinct whole keypoints are put back at their pixels, and all other pixels are zero. *)
Theorem C94_map : forall one rows cols pos descs, length pos = length descs -> NoDup pos -> (forall p, In p pos -> 0 <= fst p < rows /\ 0 <= snd p < cols) ->
  exists m, lbsp_reshape one rows cols (map (fun p => at_pixel (fst p) (snd p)) pos) descs = Some m /\
  (forall i p d, nth_error pos i = Some p -> nth_error descs i = Some d -> m p = d) /\ (forall p, ~ In p pos -> m p = 0).
Proof. exact lbsp_reshape_ok. Qed.
Print Assumptions C94_map.
(* At fractional coordinates, a one channel descriptor is put back at another pixel than the one it describes; a three channel one is not. *)
Theorem C94_map_refuted : exists rows cols k d m1 m3, detect rows cols 2 None (Some [k]) = ([k], Some [place k]) /\ d <> 0 /\
  lbsp_reshape true rows cols [k] [d] = Some m1 /\ lbsp_reshape false rows cols [k] [d] = Some m3 /\ m1 (place k) = 0 /\ m3 (place k) = d.
Proof. exact lbsp_reshape_refuted. Qed.
Print Assumptions C94_map_refuted.
(* Validating whole keypoints against a region keeps exactly those inside of it, in order. *)
Theorem C94_validate : forall rows cols roi kps, (forall k, In k kps -> whole k) ->
  exists l, validate rows cols roi kps = Some l /\ (exists p, l = filter p kps) /\ forall r c, In (at_pixel r c) l <-> In (at_pixel r c) kps /\ 0 <= r < rows /\ 0 <= c < cols /\ 0 < roi r c.
Proof. exact validate_whole. Qed.
Print Assumptions C94_validate.
(* A keypoint in the last half pixel of a row makes the region be read outside of its bounds. *)
Theorem C94_validate_refuted : exists rows cols roi k, ((0 <= kx k /\ kx k < inject_Z cols) /\ (0 <= ky k /\ ky k < inject_Z rows))%Q /\ validate rows cols roi [k] = None.
Proof. exact validate_refuted. Qed.
Print Assumptions C94_validate_refuted.

(* Concrete cases. *)
Example C94_ex_border : run_by_border 7 8 2 [at_pixel 2 2; at_pixel 1 3; at_pixel 4 5; at_pixel 4 6] = [at_pixel 2 2; at_pixel 4 5].
Proof. reflexivity. Qed.
Example C94_ex_detect : detect 6 5 2 None None = ([at_pixel 2 2; at_pixel 3 2], Some [(2, 2); (3, 2)]).
Proof. reflexivity. Qed.
Example C94_ex_rounding : nearest (5 # 2) = 2 /\ nearest (7 # 2) = 4 /\ nearest (- 5 # 2) = -2 /\ away (5 # 2) = 3 /\ away (- 5 # 2) = -3 /\ trunc (7 # 2) = 3 /\ trunc (- 7 # 2) = -3.
Proof. repeat split; reflexivity. Qed.
Example C94_ex_mi : mi_accepts 20 20 5 3 (at_pixel 2 1) = true /\ mi_validate 20 20 5 3 [at_pixel 2 1; at_pixel 7 6] = [at_pixel 7 6].
Proof. split; reflexivity. Qed.
Example C94_ex_map : match lbsp_reshape true 6 6 [at_pixel 2 3; at_pixel 3 2] [7; 9] with Some m => map m [(2, 3); (3, 2); (2, 2)] = [7; 9; 0] | None => False end.
Proof. reflexivity. Qed.
Example C94_ex_validate : validate 4 5 (fun r c => if c =? 2 then 0 else 255) [at_pixel 1 1; at_pixel 1 2; at_pixel 4 1; at_pixel 3 4] = Some [at_pixel 1 1; at_pixel 3 4].
Proof. reflexivity. Qed.
Example C94_ex_rounded : rounded (5 # 2) 2 /\ rounded (7 # 2) 4.
Proof. unfold rounded. repeat split; try (unfold Qle; cbn; lia). Qed.
