(* C55: ViBe classifies by sample consensus and only ever stores observed values. *)
From Coq Require Import ZArith List Bool Lia.
From Verif Require Import Lib.Grid Model.Vibe Spec.Vibe Proofs.Vibe.
Import ListNotations.
Open Scope Z_scope.

(* The mask has each pixel of the image once. *)
Theorem C55_mask : forall c rnd rate size img st,
  map fst (fst (apply c rnd rate size img st)) = raster size /\ NoDup (raster size) /\ forall p, In p (raster size) <-> in_image size p.
Proof. intros. split; [ apply pixels_points | split; [ apply raster_nodup | apply raster_in ] ]. Qed.
Print Assumptions C55_mask.

(* A pixel is background exactly when enough of its samples, as they are when the pixel is reached, are similar to it: always for grey
   images, and for colour images whose squared distances stay below 65536. *)
Theorem C55_decision : forall c rnd rate size img st pre p post, raster size = pre ++ p :: post ->
  let st' := snd (apply_pixels c rnd rate size img pre st) in
  byte_pixel (channels (kind_of c)) (img p) ->
  (forall s, (s < samples c)%nat -> byte_pixel (channels (kind_of c)) (bg st' s p) /\ (kind_of c = Colour -> squares (img p) (bg st' s p) < 65536)) ->
  exists fg, In (p, fg) (fst (apply c rnd rate size img st)) /\
    (fg = false <-> exists l, NoDup l /\ length l = required c /\ forall s, In s l -> (s < samples c)%nat /\ similar c (img p) (bg st' s p)).
Proof. exact decision. Qed.
Print Assumptions C55_decision.

(* Beyond that, distances wrap around: a bright red pixel is background on a black model with the default threshold of 20. *)
Theorem C55_wrap_refuted : exists c rnd rate size img st p,
  kind_of c = Colour /\ threshold c = 20 /\ (forall k, 0 <= rnd k) /\ byte_pixel 3 (img p) /\
  (forall s, bg st s p = [0; 0; 0]) /\ In (p, false) (fst (apply c rnd rate size img st)) /\
  (forall s, ~ similar c (img p) (bg st s p)) /\ (0 < required c)%nat.
Proof.
  exists {| kind_of := Colour; threshold := 20; samples := 20; required := 2 |}, (fun _ => 1), 16, (1, 1), (fun _ => [255; 23; 0]),
    {| bg := fun _ _ => [0; 0; 0]; used := 0%nat |}, (0, 0).
  split; [ reflexivity | split; [ reflexivity | split; [ intros; lia | split ] ] ].
  - split; [ reflexivity | repeat constructor; lia ].
  - split; [ reflexivity | split; [ vm_compute; left; reflexivity | split; [ intros s H; vm_compute in H; discriminate | cbn; lia ] ] ].
Qed.
Print Assumptions C55_wrap_refuted.

(* After any video every stored sample was seen around its pixel: in the initial image at most 3 pixels away, or in a frame at most 1. *)
Theorem C55_seen : forall c rnd size first frames s p, (forall k, 0 <= rnd k) -> (0 < samples c)%nat ->
  (s < samples c)%nat -> in_image size p ->
  seen size first (map fst frames) p (bg (play c rnd size frames (initialize c rnd size first)) s p).
Proof. intros c rnd size first frames s p Hr Hn Hs Hp. exact (run_seen c rnd size Hr first frames s p Hn Hs Hp). Qed.
Print Assumptions C55_seen.

(* What a frame changes in the model comes from a background pixel at most one pixel away, and stays inside of the model. *)
Theorem C55_updates : forall c rnd rate size img st s p, (forall k, 0 <= rnd k) -> (0 < samples c)%nat ->
  bg (snd (apply c rnd rate size img st)) s p = bg st s p \/
  exists q, In (q, false) (fst (apply c rnd rate size img st)) /\ (s < samples c)%nat /\ in_image size p /\ within 1 p q /\
    bg (snd (apply c rnd rate size img st)) s p = img q.
Proof. exact frame_updates. Qed.
Print Assumptions C55_updates.

(* A foreground pixel changes nothing, and draws no random number; nor does a frame all in the foreground. *)
Theorem C55_foreground : forall c rnd rate size img st p, (forall k, 0 <= rnd k) -> (0 < samples c)%nat -> in_image size p ->
  (fst (apply_pixel c rnd rate size img st p) = true -> snd (apply_pixel c rnd rate size img st p) = st) /\
  ((forall p fg, In (p, fg) (fst (apply c rnd rate size img st)) -> fg = true) -> snd (apply c rnd rate size img st) = st).
Proof.
  intros c rnd rate size img st p Hr Hn Hp. split; [ apply (apply_pixel_cases c rnd size Hr rate img st p Hp Hn) | apply frame_still; auto ].
Qed.
Print Assumptions C55_foreground.

(* With a learning rate of one every background pixel enters its own samples. *)
Theorem C55_rate_one : forall c rnd size img st p, (forall k, 0 <= rnd k) -> in_image size p -> (0 < samples c)%nat ->
  fst (apply_pixel c rnd 1 size img st p) = false ->
  exists s, (s < samples c)%nat /\ bg (snd (apply_pixel c rnd 1 size img st p)) s p = img p.
Proof. intros c rnd size img st p Hr. exact (rate_one c rnd size Hr img st p). Qed.
Print Assumptions C55_rate_one.

(* A pixel similar to everything seen around it so far is background, whatever the random numbers. *)
Theorem C55_familiar : forall c rnd size first frames rate img p fg, (forall k, 0 <= rnd k) ->
  (0 < samples c)%nat -> (required c <= samples c)%nat -> byte_pixel (channels (kind_of c)) (img p) ->
  (forall v, seen size first (map fst frames ++ [img]) p v -> byte_pixel (channels (kind_of c)) v /\ similar c (img p) v) ->
  In (p, fg) (fst (apply c rnd rate size img (play c rnd size frames (initialize c rnd size first)))) -> fg = false.
Proof.
  intros c rnd size first frames rate img p fg Hr Hn Hq Bi H. apply familiar; auto.
  intros v S. destruct (H v S). apply similar_close; auto.
Qed.
Print Assumptions C55_familiar.

(* In particular a still uniform scene never has any foreground. *)
Theorem C55_static : forall c rnd size first frames rate img p fg k, (forall k, 0 <= rnd k) ->
  (0 < samples c)%nat -> (required c <= samples c)%nat -> 0 < threshold c -> byte_pixel (channels (kind_of c)) k ->
  (forall q, first q = k) -> (forall f q, In f frames -> fst f q = k) -> (forall q, img q = k) ->
  In (p, fg) (fst (apply c rnd rate size img (play c rnd size frames (initialize c rnd size first)))) -> fg = false.
Proof. exact static. Qed.
Print Assumptions C55_static.

(* A still scene may have some if it is not uniform: samples are taken from neighbours of the initial image. *)
Theorem C55_still_refuted : exists c rnd size img p,
  (forall k, 0 <= rnd k) /\ (0 < samples c)%nat /\ (required c <= samples c)%nat /\ 0 < threshold c /\ (forall q, byte_pixel 1 (img q)) /\
  In (p, true) (fst (apply c rnd 16 size img (initialize c rnd size img))).
Proof.
  exists {| kind_of := Gray; threshold := 20; samples := 20; required := 2 |}, (fun _ => 0), (8, 8), (fun q => if fst q =? 4 then [200] else [0]), (4, 4).
  split; [ intros; lia | split; [ cbn; lia | split; [ cbn; lia | split; [ cbn; lia | split ] ] ] ].
  - intros q. destruct (fst q =? 4); (split; [ reflexivity | repeat constructor; lia ]).
  - apply nth_error_In with (n := 36%nat). vm_compute. reflexivity.
Qed.
Print Assumptions C55_still_refuted.

(* Two grey frames on a 3x2 image: the second one has a bright pixel, which is foreground. *)
Example C55_ex :
  let c := {| kind_of := Gray; threshold := 20; samples := 4; required := 2 |} in
  let rnd := fun k => Z.of_nat (k * k) in
  let st := play c rnd (3, 2) [((fun _ => [100]), 2)] (initialize c rnd (3, 2) (fun _ => [110])) in
  let img := fun q => if (fst q =? 1) && (snd q =? 0) then [200] else [105] in
  (forall k, 0 <= rnd k) /\ (0 < samples c)%nat /\ (required c <= samples c)%nat /\ in_image (3, 2) (1, 0) /\
  map snd (fst (apply c rnd 16 (3, 2) img st)) = [false; true; false; false; false; false] /\
  bg st 0%nat (1, 1) = [100] /\ bg st 1%nat (1, 1) = [110] /\
  ~ similar c (img (1, 0)) [110] /\ similar c (img (0, 0)) [110].
Proof.
  cbv zeta. split; [ intros; lia | ]. split; [ cbn; lia | ]. split; [ cbn; lia | ]. split; [ split; cbn; lia | ].
  split; [ vm_compute; reflexivity | ]. split; [ vm_compute; reflexivity | ]. split; [ vm_compute; reflexivity | ]. split; [ intros H; vm_compute in H; discriminate | vm_compute; reflexivity ].
Qed.
