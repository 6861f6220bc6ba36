(* C90: pixels and directions of the virtual PTZ camera *)
From Coq Require Import ZArith Reals Bool Lra Lia.
From Verif Require Import Model.Ptz Spec.Ptz Proofs.Ptz.
Open Scope R_scope.

(* which views are accepted *)
Theorem C90_accepted c : good_view c = true <-> (1 <= width c)%Z /\ (1 <= height c)%Z /\ 0 < fov c < 180 /\ -180 < hori c <= 180 /\ 0 <= verti c <= 180.
Proof. exact (good_view_spec c). Qed.
Print Assumptions C90_accepted.

(* a pixel of the view is turned into angles in the documented ranges; the pinhole camera sees this direction at exactly that pixel *)
Theorem C90_direction c x y : good_view c = true -> (0 <= x < width c)%Z -> (0 <= y < height c)%Z -> exists h v, xy_to_hv c x y = Some (h, v) /\
  - 180 < h <= 180 /\ 0 <= v <= 180 /\ seen_at (width c) (height c) (fov c) (hori c) (verti c) (forward h v) (IZR x) (IZR y).
Proof. exact (xy_ray c x y). Qed.
Print Assumptions C90_direction.

Theorem C90_outside c x y : good_view c = false \/ ~ ((0 <= x < width c)%Z /\ (0 <= y < height c)%Z) -> xy_to_hv c x y = None.
Proof. exact (xy_none c x y). Qed.
Print Assumptions C90_outside.

(* a direction that the camera sees nearest to a pixel of non-negative coordinates is reported at that pixel *)
Theorem C90_project c h v x y m n : good_view c = true -> -180 < h <= 180 -> 0 <= v <= 180 -> seen_at (width c) (height c) (fov c) (hori c) (verti c) (forward h v) x y ->
  nearest x m -> nearest y n -> (0 <= m <= int_max)%Z -> (0 <= n <= int_max)%Z -> hv_to_xy c h v = At m n.
Proof. exact (project_nearest c h v x y m n). Qed.
Print Assumptions C90_project.

(* hence going to the angles and back gives the same pixel *)
Theorem C90_round_trip c x y : good_view c = true -> (width c <= int_max)%Z -> (height c <= int_max)%Z -> (0 <= x < width c)%Z -> (0 <= y < height c)%Z ->
  exists h v, xy_to_hv c x y = Some (h, v) /\ hv_to_xy c h v = At x y.
Proof. exact (round_trip c x y). Qed.
Print Assumptions C90_round_trip.

(* the direction of the camera itself is reported at the centre, rounded up *)
Theorem C90_centre c : good_view c = true -> (width c <= int_max)%Z -> (height c <= int_max)%Z -> hv_to_xy c (hori c) (verti c) = At ((width c + 1) / 2) ((height c + 1) / 2).
Proof. exact (centre c). Qed.
Print Assumptions C90_centre.

(* false is returned exactly for the directions of the half space behind the camera *)
Theorem C90_behind c h v : good_view c = true -> -180 < h <= 180 -> 0 <= v <= 180 -> hv_to_xy c h v = Behind <-> inner (forward h v) (forward (hori c) (verti c)) < 0.
Proof. exact (behind_iff c h v). Qed.
Print Assumptions C90_behind.

(* for every view there is a direction exactly at a right angle: it is not rejected, the projection divides by zero and converts the result to int *)
Theorem C90_right_angle_refuted c : good_view c = true -> exists h v, -180 < h <= 180 /\ 0 <= v <= 180 /\ inner (forward h v) (forward (hori c) (verti c)) = 0 /\ hv_to_xy c h v = Undefined.
Proof. intro G. destruct (right_angle c G) as (h & v & A & B & E). exists h, v. repeat split; try tauto. now apply side_undefined. Qed.
Print Assumptions C90_right_angle_refuted.

(* for every view there is a direction seen one pixel left of the image, which is reported inside of it: the conversion to int goes towards zero *)
Theorem C90_left_refuted c : good_view c = true -> exists h v, -180 < h <= 180 /\ 0 <= v <= 180 /\
  seen_at (width c) (height c) (fov c) (hori c) (verti c) (forward h v) (-1) 0 /\ hv_to_xy c h v = At 0 0.
Proof. exact (left_zero c). Qed.
Print Assumptions C90_left_refuted.

(* a bounding box translated to the same view is centred and keeps its size, when smaller than the view *)
Theorem C90_box c bw bh : good_view c = true -> (width c <= int_max)%Z -> (height c <= int_max)%Z -> (0 <= bw < width c)%Z -> (0 <= bh < height c)%Z ->
  bounding_box c c bw bh = Box ((width c - bw) / 2) ((height c - bh) / 2) bw bh.
Proof. exact (box_same c bw bh). Qed.
Print Assumptions C90_box.

(* a box between two views never has a negative width or height; it spans the means of the corners of each side *)
Theorem C90_box_corners bgt cur bw bh x y w h : bounding_box bgt cur bw bh = Box x y w h -> (0 <= w)%Z /\ (0 <= h)%Z /\
  exists x1 y1 x2 y2 x3 y3 x4 y4, corner bgt cur ((width bgt - bw) ÷ 2) ((height bgt - bh) ÷ 2) x1 y1 /\ corner bgt cur ((width bgt - bw) ÷ 2) ((height bgt + bh) ÷ 2) x2 y2 /\
    corner bgt cur ((width bgt + bw) ÷ 2) ((height bgt - bh) ÷ 2) x3 y3 /\ corner bgt cur ((width bgt + bw) ÷ 2) ((height bgt + bh) ÷ 2) x4 y4 /\
    (x = Z.min ((x1 + x2) ÷ 2) ((x3 + x4) ÷ 2) /\ x + w = Z.max ((x1 + x2) ÷ 2) ((x3 + x4) ÷ 2) /\ y = Z.min ((y1 + y3) ÷ 2) ((y2 + y4) ÷ 2) /\ y + h = Z.max ((y1 + y3) ÷ 2) ((y2 + y4) ÷ 2))%Z.
Proof. exact (box_corners bgt cur bw bh x y w h). Qed.
Print Assumptions C90_box_corners.

(* a box as wide or as high as the view is documented as valid and passes the check, but always ends in an error *)
Theorem C90_full_box_refuted bgt cur bw bh : (1 <= width bgt)%Z -> (1 <= height bgt)%Z -> (bw = width bgt \/ bh = height bgt) -> (0 <= bw <= width bgt)%Z -> (0 <= bh <= height bgt)%Z ->
  bounding_box bgt cur bw bh = Box_error.
Proof. exact (box_full bgt cur bw bh). Qed.
Print Assumptions C90_full_box_refuted.

(* a 640x480 view with a field of view of 90 degrees, looking along a diagonal *)
Definition ex_view : view := {| width := 640; height := 480; fov := 90; hori := 45; verti := 60 |}.
Example C90_ex_good : good_view ex_view = true.
Proof. apply good_view_spec. cbn. repeat split; lra || lia. Qed.
Example C90_ex_centre : hv_to_xy ex_view 45 60 = At 320 240.
Proof. exact (C90_centre ex_view C90_ex_good ltac:(cbn; unfold int_max; lia) ltac:(cbn; unfold int_max; lia)). Qed.
Example C90_ex_round_trip : exists h v, xy_to_hv ex_view 17 401 = Some (h, v) /\ hv_to_xy ex_view h v = At 17 401.
Proof. apply C90_round_trip; [ exact C90_ex_good | | | | ]; cbn; unfold int_max; lia. Qed.
(* the nadir of the sphere is behind it *)
Example C90_ex_behind : hv_to_xy ex_view 0 180 = Behind.
Proof.
  apply C90_behind; [ exact C90_ex_good | lra | lra |]. unfold inner, forward, ex_view. cbn [fst snd hori verti]. replace (deg 180) with PI by (unfold deg; field). replace (deg 60) with (PI / 3) by (unfold deg; field).
  rewrite sin_PI, cos_PI, cos_PI3. lra.
Qed.
Example C90_ex_box : bounding_box ex_view ex_view 100 51 = Box 270 214 100 51.
Proof. exact (C90_box ex_view 100 51 C90_ex_good ltac:(cbn; unfold int_max; lia) ltac:(cbn; unfold int_max; lia) ltac:(cbn; lia) ltac:(cbn; lia)). Qed.
Example C90_ex_full : bounding_box ex_view ex_view 640 51 = Box_error.
Proof. apply C90_full_box_refuted; cbn; lia. Qed.
