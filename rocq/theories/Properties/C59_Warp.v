(* C59: image warping visits every pixel once, only reads what was computed and what is in the source image, and reproduces motions. *)
From Coq Require Import ZArith QArith List Bool Lia.
From Verif Require Import Lib.Grid Model.Warp Spec.Warp Proofs.Warp.
Import ListNotations.
Open Scope Q_scope.

(* Every destination pixel is written exactly once. *)
Theorem C59_pixels : forall f g sh sw h w ch img ratio, (0 < g)%Z ->
  NoDup (map fst (warp f g sh sw h w ch img ratio)) /\
  forall r c, In (r, c) (map fst (warp f g sh sw h w ch img ratio)) <-> (0 <= r < h)%Z /\ (0 <= c < w)%Z.
Proof. intros. split; [ apply warp_once; auto | intros; apply warp_covers; auto ]. Qed.
Print Assumptions C59_pixels.

(* The loops over the nodes end, and visit the multiples of the grid size and the last row (column). *)
Theorem C59_nodes : forall g size k fuel, (0 < g)%Z -> (0 < size)%Z -> (Z.of_nat fuel > size)%Z ->
  nodes_from fuel g size 0 = nodes g size /\ (In k (nodes g size) <-> node g size k).
Proof.
  intros g size k fuel Hg Hs Hf. split; [ unfold nodes; apply nodes_fuel; lia | apply nodes_in; auto ].
Qed.
Print Assumptions C59_nodes.

(* Displacements never computed are never read. *)
Theorem C59_reads : forall m pts g sh sw h w ch img ratio rc o, (0 < g)%Z ->
  In (rc, o) (warp (computeTransform m pts g h w) g sh sw h w ch img ratio) -> o <> Unset_read.
Proof. intros until o. intros Hg I. exact (warp_no_unset m pts g sh sw h w ch img ratio rc o Hg I). Qed.
Print Assumptions C59_reads.

(* Such displacements exist: the field is only computed at the nodes. *)
Theorem C59_elsewhere : forall m pts g h w r c, (0 < g)%Z -> (0 < h)%Z -> (0 < w)%Z -> (2 <= length pts)%nat ->
  (computeTransform m pts g h w r c = Unset <-> ~ (node g h r /\ node g w c)).
Proof.
  intros m pts g h w r c Hg Hh Hw L. split.
  - intros E [N1 N2]. exact (transform_set m pts g h w r c Hg Hh Hw N1 N2 E).
  - intros N. apply transform_off; auto.
Qed.
Print Assumptions C59_elsewhere.

(* Whatever the displacements, the result depends on pixels of the source image only. *)
Theorem C59_source : forall f g sh sw h w ch img img' ratio, (0 < sh)%Z -> (0 < sw)%Z ->
  (forall r c k, (0 <= r < sh)%Z -> (0 <= c < sw)%Z -> (0 <= k < ch)%Z -> img r c k = img' r c k) ->
  warp f g sh sw h w ch img ratio = warp f g sh sw h w ch img' ratio.
Proof. exact warp_img. Qed.
Print Assumptions C59_source.

(* Output values stay between the smallest and the largest source values: conversions to bytes lose nothing. *)
Theorem C59_values : forall f g sh sw h w ch img ratio lo hi rc v, (0 < g)%Z -> (0 < sh)%Z -> (0 < sw)%Z ->
  (forall r c k, (0 <= r < sh)%Z -> (0 <= c < sw)%Z -> (0 <= k < ch)%Z -> (lo <= img r c k <= hi)%Z) ->
  In (rc, Pixel v) (warp f g sh sw h w ch img ratio) -> length v = Z.to_nat ch /\ Forall (fun x => (lo <= x <= hi)%Z) v.
Proof.
  intros f g sh sw h w ch img ratio lo hi rc v Hg Hh Hw B I. split; [ exact (warp_length f g sh sw h w ch img ratio rc v Hg I) | ].
  exact (warp_range f g sh sw h w ch img ratio lo hi rc v Hg Hh Hw B I).
Qed.
Print Assumptions C59_values.

(* A null warp strength copies the image. *)
Theorem C59_still : forall f g sh sw h w ch img r c v, (0 < g)%Z -> (h <= sh)%Z -> (w <= sw)%Z ->
  In ((r, c), Pixel v) (warp f g sh sw h w ch img 0) -> v = map (img r c) (zrange 0 ch).
Proof. exact warp_still. Qed.
Print Assumptions C59_still.

(* Control points that stay in place leave the whole image unchanged, in both modes and for every warp strength. *)
Theorem C59_identity : forall m pts g sh sw h w ch img ratio r c o,
  (forall p, In p pts -> sx p == dx p /\ sy p == dy p) -> two_points pts -> (0 < g)%Z -> (h <= sh)%Z -> (w <= sw)%Z ->
  In ((r, c), o) (warp (computeTransform m pts g h w) g sh sw h w ch img ratio) ->
  o = Pixel (map (img r c) (zrange 0 ch)).
Proof. exact warp_identity. Qed.
Print Assumptions C59_identity.

(* Control points moved by whole pixels move the whole image, the borders being repeated. *)
Theorem C59_translation : forall m pts tx ty g sh sw h w ch img r c o,
  follows (translation tx ty) pts -> two_points pts -> (0 < g)%Z -> (0 < sh)%Z -> (0 < sw)%Z ->
  In ((r, c), o) (warp (computeTransform m pts g h w) g sh sw h w ch img 1) ->
  o = Pixel (map (img (nearest (r + ty) sh) (nearest (c + tx) sw)) (zrange 0 ch)).
Proof. exact warp_shift. Qed.
Print Assumptions C59_translation.

(* Rotations and translations of the control points (and scalings in similarity mode) are reproduced exactly by the displacement field. *)
Theorem C59_motion : forall m pts t g h w r c, follows t pts -> two_points pts -> fits m t ->
  (0 < g)%Z -> (0 < h)%Z -> (0 < w)%Z -> node g h r -> node g w c ->
  exists u v, computeTransform m pts g h w r c = Delta u v /\
    inject_Z c + u == move_x t (inject_Z c) (inject_Z r) /\ inject_Z r + v == move_y t (inject_Z c) (inject_Z r).
Proof.
  intros m pts t g h w r c F Two Fit Hg Hh Hw Nr Nc.
  destruct (node_motion m pts t g h w r c F Two Fit Hg Hh Hw Nr Nc) as (u & v & E & Eu & Ev).
  exists u, v. split; [ exact E | rewrite Eu, Ev; split; ring ].
Qed.
Print Assumptions C59_motion.

(* ... and, but for the last cells, by the warped image: each pixel is read at the moved place. *)
Theorem C59_motion_image : forall m pts t g sh sw h w ch img ratio r c o, follows t pts -> two_points pts -> fits m t -> (0 < g)%Z ->
  inner g h r -> inner g w c ->
  In ((r, c), o) (warp (computeTransform m pts g h w) g sh sw h w ch img ratio) ->
  o = Pixel (map (sample img
    (clamp (inject_Z r + (move_y t (inject_Z c) (inject_Z r) - inject_Z r) * ratio) sh)
    (clamp (inject_Z c + (move_x t (inject_Z c) (inject_Z r) - inject_Z c) * ratio) sw)) (zrange 0 ch)).
Proof. exact warp_motion. Qed.
Print Assumptions C59_motion_image.

(* A control point placed on a multiple of the grid size is honoured exactly. *)
Theorem C59_control : forall m pts g sh sw h w ch img r c p v, (0 < g)%Z -> (2 <= length pts)%nat ->
  In p pts -> dx p == inject_Z c -> dy p == inject_Z r ->
  (forall q, In q pts -> dx q == dx p -> dy q == dy p -> sx q == sx p /\ sy q == sy p) ->
  (g | r)%Z -> (g | c)%Z ->
  In ((r, c), Pixel v) (warp (computeTransform m pts g h w) g sh sw h w ch img 1) ->
  v = map (sample img (clamp (sy p) sh) (clamp (sx p) sw)) (zrange 0 ch).
Proof. exact warp_control. Qed.
Print Assumptions C59_control.

(* One on the last column is not, although the displacement is computed there: cells that touch the border are interpolated as if they
   were one pixel longer. *)
Theorem C59_control_last_refuted : exists pts (img : image) p v,
  In p pts /\ dx p == 3 /\ dy p == 0 /\ sx p == 2 /\ sy p == 0 /\
  (exists u v, computeTransform SIMILARITY pts 2 1 4 0%Z 3%Z = Delta u v /\ u == - (1) /\ v == 0) /\
  In ((0, 3)%Z, Pixel v) (warp (computeTransform SIMILARITY pts 2 1 4) 2 1 4 1 4 1 img 1) /\ v <> [img 0%Z 2%Z 0%Z].
Proof.
  exists [ {| sx := 0; sy := 0; dx := 0; dy := 0 |}; {| sx := 2; sy := 0; dx := 3; dy := 0 |} ], (fun r c k => 10 * c)%Z,
    {| sx := 2; sy := 0; dx := 3; dy := 0 |}, [21%Z].
  split; [ right; left; reflexivity | ]. do 4 (split; [ reflexivity | ]).
  split; [ eexists; eexists; split; [ vm_compute; reflexivity | split; vm_compute; reflexivity ] | ].
  split; [ vm_compute; repeat (first [ left; reflexivity | right ]) | discriminate ].
Qed.
Print Assumptions C59_control_last_refuted.

(* Coinciding destination points, or source points in rigid mode, divide by zero. *)
Theorem C59_coinciding_refuted : exists pts pts' (img : image),
  length pts = 2%nat /\ length pts' = 2%nat /\ two_points pts' /\
  In ((0, 0)%Z, Not_a_number) (warp (computeTransform SIMILARITY pts 2 1 2) 2 1 4 1 2 1 img 1) /\
  In ((0, 0)%Z, Not_a_number) (warp (computeTransform RIGID pts' 2 1 2) 2 1 4 1 2 1 img 1).
Proof.
  exists [ {| sx := 0; sy := 0; dx := 3; dy := 0 |}; {| sx := 2; sy := 0; dx := 3; dy := 0 |} ],
    [ {| sx := 1; sy := 0; dx := 3; dy := 0 |}; {| sx := 1; sy := 0; dx := 4; dy := 0 |} ], (fun r c k => 10 * c)%Z.
  split; [ reflexivity | split; [ reflexivity | split ] ].
  - eexists; eexists. split; [ left; reflexivity | split; [ right; left; reflexivity | ] ]. intros [E _]. cbn in E. discriminate E.
  - split; vm_compute; left; reflexivity.
Qed.
Print Assumptions C59_coinciding_refuted.

(* A quarter turn about a corner with a translation, followed by two control points, on a 3x3 image with a grid of 2. *)
Example C59_ex :
  let t := {| ma := 0; mb := 1; mtx := 2; mty := 0 |} in
  let pts := [ {| sx := 2; sy := 0; dx := 0; dy := 0 |}; {| sx := 2; sy := 2; dx := 2; dy := 0 |} ] in
  let img : image := fun r c k => (10 * r + c)%Z in
  follows t pts /\ two_points pts /\ fits RIGID t /\ inner 2 3 1 /\ inner 2 3 0 /\ node 2 4 3 /\ ~ node 2 5 3 /\
  In ((1, 0)%Z, Pixel [1%Z]) (warp (computeTransform RIGID pts 2 3 3) 2 3 3 3 3 1 img 1) /\
  In ((1, 0)%Z, Pixel [1%Z]) (warp (computeTransform SIMILARITY pts 2 3 3) 2 3 3 3 3 1 img 1) /\
  In ((1, 0)%Z, Pixel [10%Z]) (warp (computeTransform SIMILARITY pts 2 3 3) 2 3 3 3 3 1 img 0).
Proof.
  cbv zeta. split.
  { intros p [ <- | [ <- | [] ] ]; split; reflexivity. }
  split.
  { eexists; eexists. split; [ left; reflexivity | split; [ right; left; reflexivity | ] ]. intros [E _]. cbn in E. discriminate E. }
  split; [ reflexivity | ]. split; [ right; reflexivity | ]. split; [ left; exists 0%Z; reflexivity | ].
  split; [ split; [ lia | right; reflexivity ] | ].
  split; [ intros [ _ [ (k & E) | E ] ]; lia | ].
  split; [ | split ]; vm_compute; repeat (first [ left; reflexivity | right ]).
Qed.
