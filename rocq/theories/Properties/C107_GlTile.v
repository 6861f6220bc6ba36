(* C107: tiles of images in shared memory, and the median blur that LOBSTER applies to its masks on the graphics card. *)
From Coq Require Import ZArith List Bool Lia Permutation.
From Verif Require Import Lib.Grid Model.GlScan Model.GlTile Spec.GlTile Proofs.GlScan Proofs.GlTile.
Import ListNotations.
Open Scope Z_scope.

(* Once all invocations of a group are through, its shared array is the image around the group, border included, in whatever order they drew their numbers and stored their pixels.
   Of the scaled columns, which are rounded in floating point, only the first and the last matter. *)
Theorem C107_preload w h border scaled im x0 y0 : 3 < w -> 3 < h -> 0 <= border -> scaled 0 = 0 -> scaled (w - 1) = (w - 1) * h / w ->
  forall garbage sched, (forall t, In t sched -> in_group w h t) -> finished w h (preload w h border scaled im x0 y0 garbage sched) ->
  forall x y, - border <= x < w + border -> - border <= y < h + border -> data (preload w h border scaled im x0 y0 garbage sched) (x, y) = image_load im (x0 + x) (y0 + y).
Proof. exact (preloaded w h border scaled im x0 y0). Qed.
Print Assumptions C107_preload.
(* They do get through, from wherever they are. *)
Theorem C107_finishes w h border scaled im x0 y0 : forall garbage sched, (forall t, In t sched -> in_group w h t) -> exists more, (forall t, In t more -> in_group w h t) /\ finished w h (preload w h border scaled im x0 y0 garbage (sched ++ more)).
Proof. exact (finishes w h border scaled im x0 y0). Qed.
Print Assumptions C107_finishes.
Example C107_ex_preload : exists sched, finished 12 8 (preload 12 8 4 (fun x => x * 8 / 12) stripe 0 0 (fun _ => 77) sched) /\ data (preload 12 8 4 (fun x => x * 8 / 12) stripe 0 0 (fun _ => 77) sched) (12, 0) = 255.
Proof.
  destruct (C107_finishes 12 8 4 (fun x => x * 8 / 12) stripe 0 0 (fun _ => 77) []) as (more & G & F); [ intros t [] |]. cbn [app] in F. exists more. split; [ exact F |].
  rewrite (C107_preload 12 8 4 (fun x => x * 8 / 12) stripe 0 0 ltac:(lia) ltac:(lia) ltac:(lia) eq_refl eq_refl (fun _ => 77) more G F) by lia. reflexivity.
Qed.
(* The numbers of the four quadrants stand for the pixels of the border, each once, and no two invocations ever store to the same place. *)
Theorem C107_cells w h border : 3 < w -> 3 < h -> 0 <= border -> (forall p, (- border <= fst p < w + border /\ - border <= snd p < h + border) /\ ~ in_group w h p <->
  exists q k, 0 <= q <= 3 /\ 0 <= k < limit w h border q /\ cell w h border q k = p) /\
  forall q k q' k', 0 <= q <= 3 -> 0 <= q' <= 3 -> 0 <= k < limit w h border q -> 0 <= k' < limit w h border q' -> cell w h border q k = cell w h border q' k' -> q = q' /\ k = k'.
Proof. exact (fun W H B => conj (cells w h border W H B) (cells_once w h border W H B)). Qed.
Print Assumptions C107_cells.
Theorem C107_writers w h border scaled im x0 y0 : 3 < w -> 3 < h -> 0 <= border -> forall garbage sched t u k j, (forall t, In t sched -> in_group w h t) ->
  let s := preload w h border scaled im x0 y0 garbage sched in
  at_place s t = Hold k -> at_place s u = Hold j -> cell w h border (quadrant h scaled t) k = cell w h border (quadrant h scaled u) j -> t = u.
Proof. exact (writers w h border scaled im x0 y0). Qed.
Print Assumptions C107_writers.
Example C107_ex_writers : let s := preload 4 4 1 (fun x => x) stripe 0 0 (fun _ => 0) [(0, 0); (1, 0)] in at_place s (0, 0) = Hold 0 /\ at_place s (1, 0) = Hold 1.
Proof. vm_compute. split; reflexivity. Qed.

(* Blurring from the shared array gives what blurring from the image gives. *)
Theorem C107_shared k w h scaled im x0 y0 garbage sched x y : 3 < w -> 3 < h -> 0 <= k -> scaled 0 = 0 -> scaled (w - 1) = (w - 1) * h / w ->
  (forall t, In t sched -> in_group w h t) -> finished w h (preload w h (k / 2) scaled im x0 y0 garbage sched) -> in_group w h (x, y) ->
  median_shared k (data (preload w h (k / 2) scaled im x0 y0 garbage sched)) x y = median_direct k im (x0 + x) (y0 + y).
Proof. exact (shared_direct k w h scaled im x0 y0 garbage sched x y). Qed.
Print Assumptions C107_shared.
(* For odd sizes and masks of 0 and 255 this is the median of the square, with zeros outside of the image. *)
Theorem C107_median r im x y : 0 <= r -> (forall a b, texel im a b = 0 \/ texel im a b = 255) ->
  is_median (median_direct (2 * r + 1) im x y) (map (fun p => image_load im (fst p) (snd p)) (square r x y)).
Proof. exact (median_odd r im x y). Qed.
Print Assumptions C107_median.
Example C107_ex_median : (forall a b, texel stripe a b = 0 \/ texel stripe a b = 255) /\ median_direct 9 stripe 11 4 = 255 /\ median_direct 9 stripe 13 4 = 0.
Proof. split; [ intros a b; cbn [texel stripe]; destruct (_ || _); tauto | vm_compute; split; reflexivity ]. Qed.
(* So the corner of a mask is always cleared, even if all of its pixels are set; cv::medianBlur, which the version without graphics card uses, repeats the pixels of the edge. *)
Theorem C107_corner_refuted : forall r, 1 <= r -> exists im, (forall x y, texel im x y = 255) /\ 2 * r + 1 < cols im /\ 2 * r + 1 < rows im /\ median_direct (2 * r + 1) im 0 0 = 0.
Proof. intros r R. exists {| cols := 2 * r + 2; rows := 2 * r + 2; texel := fun _ _ => 255 |}. split; [ reflexivity |]. split; [ cbn; lia |]. split; [ cbn; lia |]. exact (corner r _ R). Qed.
Print Assumptions C107_corner_refuted.

(* The mask is blurred in place. Whatever the order of loads and stores of the groups, a result is the median of pixels of which each is as it was or as it becomes, and those of the same group are as they were ... *)
Theorem C107_race w h k im es s' g p : 0 < w -> 0 < h -> history w h k es (before im) s' -> In (Result g p) es -> within im (fst g * w + fst p) (snd g * h + snd p) = true ->
  exists f, texel (mask s') (fst g * w + fst p) (snd g * h + snd p) = median_blur k f (fst g * w + fst p) (snd g * h + snd p) /\
    forall x y, Z.abs (x - (fst g * w + fst p)) <= k / 2 -> Z.abs (y - (snd g * h + snd p)) <= k / 2 ->
      f (x, y) = image_load im x y \/ (x / w, y / h) <> g /\ f (x, y) = image_load (mask s') x y.
Proof. exact (fun W H => race w h k im W H es s' g p). Qed.
Print Assumptions C107_race.
(* ... so pixels whose square does not reach other groups are right. *)
Theorem C107_inside w h k im es s' g p : 0 < w -> 0 < h -> history w h k es (before im) s' -> In (Result g p) es -> within im (fst g * w + fst p) (snd g * h + snd p) = true ->
  (forall x y, within im x y = true -> Z.abs (x - (fst g * w + fst p)) <= k / 2 -> Z.abs (y - (snd g * h + snd p)) <= k / 2 -> (x / w, y / h) = g) ->
  texel (mask s') (fst g * w + fst p) (snd g * h + snd p) = median_direct k im (fst g * w + fst p) (snd g * h + snd p).
Proof. exact (fun W H => inside w h k im W H es s' g p). Qed.
Print Assumptions C107_inside.
(* The others depend on the order of the groups, with the default sizes of groups and blur: the same events give different masks. *)
Theorem C107_order_refuted : exists im es1 es2 s1 s2, (forall x y, texel im x y = 0 \/ texel im x y = 255) /\ Permutation es1 es2 /\ history 12 8 9 es1 (before im) s1 /\ history 12 8 9 es2 (before im) s2 /\
  texel (mask s1) 11 4 = 255 /\ texel (mask s2) 11 4 = 0.
Proof.
  destruct order_matters as (s1 & s2 & H1 & H2 & V1 & V2). exists stripe. eexists. eexists. exists s1, s2. split; [ exact (proj1 C107_ex_median) |].
  split; [| split; [ exact H1 | split; [ exact H2 | split; assumption ]]]. apply Permutation_app_comm.
Qed.
Print Assumptions C107_order_refuted.
Example C107_ex_race : exists es s' p, history 12 8 9 es (before stripe) s' /\ In (Result (0, 0) p) es /\ within stripe (0 * 12 + fst p) (0 * 8 + snd p) = true /\
  forall x y, within stripe x y = true -> Z.abs (x - (0 * 12 + fst p)) <= 9 / 2 -> Z.abs (y - (0 * 8 + snd p)) <= 9 / 2 -> (x / 12, y / 8) = (0, 0).
Proof.
  destruct order_matters as (s1 & _ & H1 & _). eexists. exists s1, (3, 3). split; [ exact H1 |]. split; [| split; [ reflexivity |]].
  - apply in_or_app. left. unfold group_events. apply in_or_app. right. apply in_map. apply in_map_iff. exists (3, 3). split; [ reflexivity |]. apply in_grid. cbn. lia.
  - intros x y I X Y. apply within_spec in I. change (9 / 2) with 4 in *. cbn [fst snd stripe cols rows] in *. rewrite !Z.div_small by lia. reflexivity.
Qed.
