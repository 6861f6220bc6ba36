(** C57: the pixel tables of a background subtractor are inverse to each other, and its region of interest keeps off the borders. *)
From Coq Require Import ZArith List Bool Lia.
From Verif Require Import Lib.Grid Model.RoiTable Spec.RoiTable Proofs.RoiTable.
Import ListNotations.
Open Scope Z_scope.

(** the table of pixels has every pixel of the region once, in raster order *)
Theorem C57_enumerates : forall m ch img, 0 <= rows m -> 0 < cols m ->
  (forall i, In i (lut (tables_of m ch img)) <-> 0 <= i < rows m * cols m /\ px m (i / cols m) (i mod cols m) <> 0) /\
  increasing (lut (tables_of m ch img)) /\ Z.of_nat (length (lut (tables_of m ch img))) = nonzero m.
Proof. intros m ch img H W. exact (conj (lut_in m ch img) (conj (lut_increasing m ch img) (lut_length m ch img H W))). Qed.
Print Assumptions C57_enumerates.
(** the information of a pixel: its coordinates, and its place in the table if it is in the region *)
Theorem C57_pixel : forall m ch img i, 0 < cols m -> 0 <= rows m -> 0 <= i < rows m * cols m ->
  let f := nth (Z.to_nat i) (infos (tables_of m ch img)) (Info 0 0 None) in
  i = coord_y f * cols m + coord_x f /\ 0 <= coord_x f < cols m /\ 0 <= coord_y f < rows m /\
  (px m (coord_y f) (coord_x f) = 0 -> model f = None) /\
  (px m (coord_y f) (coord_x f) <> 0 -> exists k, model f = Some k /\ 0 <= k < Z.of_nat (length (lut (tables_of m ch img))) /\ nth (Z.to_nat k) (lut (tables_of m ch img)) (-1) = i).
Proof. exact info_ok. Qed.
Print Assumptions C57_pixel.
Theorem C57_inverse : forall m ch img k, (k < length (lut (tables_of m ch img)))%nat ->
  model (nth (Z.to_nat (nth k (lut (tables_of m ch img)) (-1))) (infos (tables_of m ch img)) (Info 0 0 None)) = Some (Z.of_nat k).
Proof. exact rank_lut. Qed.
Print Assumptions C57_inverse.
(** the last frame starts as the first image in the region and black elsewhere *)
Theorem C57_first_frame : forall m ch img i c, 0 <= i < rows m * cols m -> 0 <= c < ch ->
  nth (Z.to_nat (i * ch + c)) (last (tables_of m ch img)) 0 = if px m (i / cols m) (i mod cols m) =? 0 then 0 else img (i * ch + c).
Proof. exact last_ok. Qed.
Print Assumptions C57_first_frame.

(** whatever region is asked for, the one used has pixels, all at least b away from the sides, so that a descriptor of radius b stays in the image *)
Theorem C57_away : forall b cur given h w f, 0 <= b -> initialize_roi b cur given h w = Some f ->
  rows f = h /\ cols f = w /\ 0 < nonzero f /\ forall y x, inside h w (y, x) -> px f y x <> 0 ->
  away b h w (y, x) /\ forall dy dx, Z.abs dy <= b -> Z.abs dx <= b -> inside h w (y + dy, x + dx).
Proof.
  intros b cur given h w f B E. apply away_all in E; [|exact B]. destruct E as (R & C & N & A). repeat split; auto; try apply (A y x); auto.
  all: pose proof (A y x H H0) as D; unfold away, inside in *; cbn [fst snd] in *; lia.
Qed.
Print Assumptions C57_away.
(** a region that is passed grows by b pixels and then loses the borders; the pixels added are marked 128 *)
Theorem C57_region : forall b cur r h w f, 0 <= b -> bytes r -> initialize_roi b cur (Some r) h w = Some f -> forall y x, inside h w (y, x) ->
  (px f y x <> 0 <-> away b h w (y, x) /\ close b r (y, x)) /\ (px f y x = 255 <-> away b h w (y, x) /\ px r y x = 255) /\ (px f y x = 0 \/ px f y x = 128 \/ px f y x = 255).
Proof.
  intros b cur r h w f B Y E y x I. split; [exact (given_region b cur r h w f B Y E y x I)|].
  apply given_px in E; auto. destruct E as (S1 & S2 & T & _ & _ & _ & G). destruct (G y x I) as [(P & Q & A)|[(P & Q & K & A)|(P & A)]]; rewrite P.
  - split; auto. split; auto.
  - split; auto. split; [discriminate|]. intros (_ & X). rewrite Q in X. discriminate X.
  - split; auto. split; [discriminate|]. intros (X & Z). exfalso. destruct A as [A|A]; apply A; auto.
    exists (y, x). cbn [fst snd]. rewrite S1, S2. repeat split; try apply I; try (rewrite Z.sub_diag; cbn; lia). rewrite Z. discriminate.
Qed.
Print Assumptions C57_region.
(** initialising again without a region keeps the one in use *)
Theorem C57_again : forall b cur given h w f, 0 <= b -> initialize_roi b cur given h w = Some f ->
  exists f', initialize_roi b (Some f) None h w = Some f' /\ rows f' = h /\ cols f' = w /\ forall y x, inside h w (y, x) -> px f' y x = px f y x.
Proof. exact initialize_again. Qed.
Print Assumptions C57_again.

(** a single pixel in the middle of a 5x5 image *)
Definition dot : mask := Mask 5 5 (fun y x => if (y =? 2) && (x =? 2) then 255 else 0).
Definition grown : mask := match initialize_roi 1 None (Some dot) 5 5 with Some f => f | None => dot end.
Definition set : mask := match setROI 1 dot with Some f => f | None => dot end.
Definition kept : mask := match initialize_roi 1 (Some set) None 5 5 with Some f => f | None => dot end.
(** the region in use, passed back, is refused *)
Theorem C57_copy_accepted_refuted : exists b r h w f, 0 <= b /\ bytes r /\ initialize_roi b None (Some r) h w = Some f /\ initialize_roi b (Some f) (Some f) h w = None.
Proof.
  exists 1, dot, 5, 5, grown. split; [lia|]. split; [intros y x _; unfold dot; cbn [px]; destruct ((y =? 2) && (x =? 2)); lia|]. split; [|vm_compute; reflexivity].
  apply some_of. vm_compute. reflexivity.
Qed.
Print Assumptions C57_copy_accepted_refuted.
(** setting a region and then initialising is not initialising with it: only the latter makes it grow *)
Theorem C57_same_region_refuted : exists b r h w s f g, 0 <= b /\ bytes r /\ setROI b r = Some s /\ initialize_roi b (Some s) None h w = Some f /\ initialize_roi b None (Some r) h w = Some g /\ nonzero f <> nonzero g.
Proof.
  exists 1, dot, 5, 5, set, kept, grown. split; [lia|]. split; [intros y x _; unfold dot; cbn [px]; destruct ((y =? 2) && (x =? 2)); lia|].
  split; [apply some_of; vm_compute; reflexivity|]. split; [apply some_of; vm_compute; reflexivity|]. split; [apply some_of; vm_compute; reflexivity|]. vm_compute. discriminate.
Qed.
Print Assumptions C57_same_region_refuted.

Example C57_ex : (match initialize_roi 1 None (Some dot) 5 5 with Some f => lut (tables_of f 1 (fun i => i)) | None => [] end) = [6; 7; 8; 11; 12; 13; 16; 17; 18] /\
  nth 13 (infos (tables_of dot 1 (fun i => i))) (Info 0 0 None) = Info 2 3 None /\ nth 12 (infos (tables_of dot 1 (fun i => i))) (Info 0 0 None) = Info 2 2 (Some 0) /\
  nth 38 (last (tables_of dot 3 (fun i => i))) 0 = 38 /\ nth 40 (last (tables_of dot 3 (fun i => i))) 7 = 0.
Proof. vm_compute. repeat split. Qed.
