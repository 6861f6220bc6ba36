(* C77: what PAWCS decides and learns: a frame is the pixels of the region one after the other; a pixel is background if its words that fit weigh enough, or if
   a global word helps; what it learns are words of the pixel itself, in its own dictionary and in that of one neighbour at most. Colours far apart may fit. *)
From Coq Require Import ZArith QArith Qround List Bool Lia Lqa.
From Verif Require Import Lib.Grid Spec.Lbsp Spec.Vibe Spec.Distances Model.Lobster Spec.Lobster Model.WordDict Model.Pawcs Spec.Pawcs.
From Verif Require Model.Subsense Proofs.WordDict Proofs.Pawcs Proofs.PawcsFrame Proofs.PawcsRun Proofs.PawcsSpec.
From Verif Require Import Proofs.PawcsReach.
Import ListNotations.
Open Scope Z_scope.

(* A frame: nothing but a shift amount that got too large in thousands of frames stops it, and every pixel does what it should in the state the pixels before it
   left. Without a refresh of the model (45 is the ratio that asks for one, every 500th frame is checked for a moving camera) nothing else is learned. *)
Theorem C77_frame : forall c rnd sz img0 sc l st ov r a b img, reached c rnd sz img0 sc l st -> byte_image img -> ov < 2 ^ 64 -> ov <> 2 ^ 63 ->
  (apply c rnd ov r a b sc img st = Fault Shift64 /\ 4940 < count_frames l + 1) \/
  exists m st' s s', apply c rnd ov r a b sc img st = Done (m, st') /\ map fst m = pxs sc /\ frame (lev st') = count_frames l + 1 /\
    (dict s = dict st /\ glob s = glob st /\ order s = order st /\ seen s = seen st /\ px s = px st) /\
    (frame (lev s) = count_frames l + 1 /\ woff (lev s) = woff (lev st) /\ moving (lev s) = moving (lev st) /\ cool (lev s) = cool (lev st) /\ lut (lev s) = lut (lev st)) /\
    walk (step c sc img) (combine (zrange 0 (Z.of_nat (length (pxs sc)))) (pxs sc)) s m s' /\
    seen st' = seen s' /\ ((r < 45)%Q -> (count_frames l + 1) mod 500 <> 0 -> dict st' = dict s' /\ woff (lev st') = woff (lev st) /\ moving (lev st') = moving (lev st)).
Proof.
  intros c rnd sz img0 sc l st ov r a b img R Bi O1 O2. destruct (reached_live _ _ _ _ _ _ _ R) as (S & L & F & _). destruct R as (st0 & ((Hk & Hm & Hg & Hc) & Hr & _) & Ha & _).
  pose proof (PawcsFrame.apply_ok c rnd sc Hr Hk Hm Hg Hc S ov r a b img st Bi (conj O1 O2) Ha L) as H. cbv zeta in H. rewrite F in H.
  destruct (apply c rnd ov r a b sc img st) as [[m st']| | |f]; cbn [Pawcs.safe] in H; try contradiction; [| destruct f; try contradiction; left; split; [ reflexivity | exact H ] ].
  right. destruct H as (H1 & _ & H3 & s & s' & E1 & E2 & E3 & E4 & E5 & E6 & W & z & st2 & FL & D1 & D2 & D3 & D4 & D5 & D6 & _). cbn [fst snd] in *.
  exists m, st', s, s'. split; [ reflexivity |]. split; [ exact H1 |]. split; [ exact H3 |]. split; [ auto |]. split; [ rewrite E1; cbn; auto |]. split; [ exact (PawcsSpec.walk_ok c sc Hk Hm Hg S _ img ov _ s m s' Bi W) |].
  destruct (PawcsFrame.frame_level_keeps _ _ _ _ _ _ _ _ _ FL) as (K1 & _ & K3). split; [ rewrite K1; exact D2 |]. intros Lr Nz. rewrite D3 in K3. destruct (K3 Lr Nz) as (K4 & _ & K5 & K6). rewrite K4, K5, K6. auto.
Qed.
Print Assumptions C77_frame.

(* A pixel that fits its first word is background, if no word weighs less than nothing. *)
Theorem C77_familiar : forall c sc img j p st fg st' w0, step c sc img (j, place (size sc) p) st fg st' -> inner (size sc) p ->
  let b := j * Z.of_nat (locals c) in
  shown (dict st) b = Some w0 -> (forall lc lt, limits c (px st (place (size sc) p)) lc lt -> fits (ch c) (lut (lev st)) (size sc) img p lc lt w0) ->
  (1 # 2 <= Subsense.radius (px st (place (size sc) p)))%Q ->
  (forall t w, b <= t < b + Z.of_nat (locals c) -> shown (dict st) t = Some w -> (0 <= heft (frame (lev st)) (woff (lev st)) w)%Q) -> fg = false.
Proof. exact PawcsReach.familiar. Qed.
Print Assumptions C77_familiar.

(* A pixel inside the region that no word of its own fits and no global word resembles is foreground, if its first word weighs something. *)
Theorem C77_unseen : forall c sc img j p st fg st' w0, step c sc img (j, place (size sc) p) st fg st' -> inner (size sc) p -> roi sc (place (size sc) p) = 255 ->
  let b := j * Z.of_nat (locals c) in
  (0 < locals c)%nat -> shown (dict st) b = Some w0 -> (0 < heft (frame (lev st)) (woff (lev st)) w0)%Q -> (0 < Subsense.radius (px st (place (size sc) p)))%Q ->
  (forall t w lc lt, b <= t < b + Z.of_nat (locals c) -> shown (dict st) t = Some w -> limits c (px st (place (size sc) p)) lc lt -> ~ fits (ch c) (lut (lev st)) (size sc) img p lc lt w) ->
  (forall a lc lt, 0 <= a < Z.of_nat (globals c) -> limits c (px st (place (size sc) p)) lc lt ->
     ~ resembles (ch c) (pixel_of (ch c) (size sc) img p) (contrast (ch c) (lut (lev st)) (size sc) img p) lc lt (cells (glob st) a)) -> fg = true.
Proof. exact PawcsReach.unseen. Qed.
Print Assumptions C77_unseen.

(* Black against dark grey is one apart, and a frame shows it: after black, grey of 80 is all foreground, and the lighter grey of 86 is all background. *)
Theorem C77_contrast_refuted : exists c rnd sc st m m' st1 st2, reached c rnd (8, 8) (fun _ => 0) sc [] st /\ ch c = 3 /\ pxs sc <> [] /\
  apart 3 [0; 0; 0] [80; 80; 80] 120 /\ apart 3 [0; 0; 0] [86; 86; 86] 1 /\
  apply c rnd 0 0 0 0 sc (fun _ => 80) st = Done (m, st1) /\ Forall (fun x => snd x = true) m /\
  apply c rnd 0 0 0 0 sc (fun _ => 86) st = Done (m', st2) /\ Forall (fun x => snd x = false) m'.
Proof. exact PawcsReach.contrast_lost. Qed.
Print Assumptions C77_contrast_refuted.

(* ---- the first pixel after black, in a black frame and in a grey one *)
Example C77_ex_familiar : exists c sc img j p st fg st' w0, step c sc img (j, place (size sc) p) st fg st' /\ inner (size sc) p /\
  let b := j * Z.of_nat (locals c) in
  shown (dict st) b = Some w0 /\ (forall lc lt, limits c (px st (place (size sc) p)) lc lt -> fits (ch c) (lut (lev st)) (size sc) img p lc lt w0) /\
  (1 # 2 <= Subsense.radius (px st (place (size sc) p)))%Q /\
  (forall t w, b <= t < b + Z.of_nat (locals c) -> shown (dict st) t = Some w -> (0 <= heft (frame (lev st)) (woff (lev st)) w)%Q).
Proof.
  destruct black_state as (sc & st & R & [F1 (w0 & F2 & F2') F3 F4 (F5 & F6 & F7 & F8 & F9 & F10)]).
  destruct (C77_frame _ _ _ _ _ _ _ 0 0 0 0 (fun _ => 0) R ltac:(intros i; lia) ltac:(lia) ltac:(lia)) as [[_ X]|(m & st' & s & s' & _ & _ & _ & (D1 & D2 & _ & _ & D5) & (L1 & L2 & _ & _ & L5) & W & _)]; [ cbn in X; lia |].
  destruct (pxs sc) as [|i l] eqn:Ei; [ discriminate F5 |]. cbn [hd] in F5. subst i. destruct (first_numbered 18 l) as [l' El]. rewrite El in W. destruct (walk_first _ _ _ _ _ _ W) as (fg & s1 & m1 & St & _).
  exists colour_config, sc, (fun _ => 0), 0, (2, 2), s, fg, s1, w0. rewrite F8. change (place (8, 8) (2, 2)) with 18. split; [ exact St |]. split; [ unfold inner; cbn; lia |]. cbv zeta. rewrite D1, D5, L5. split; [ exact F2 |]. split; [| split ].
  - intros lc lt Hl. destruct (black_limits _ _ _ F4 Hl) as [-> Ht]. destruct (black_texture (lut (lev st)) w0 F9 F2') as [T1 T2]. split.
    + exists 0. split; [| lia ]. unfold pitch in F2'. destruct (colour w0) as [|[] [|[] [|[] []]]]; try discriminate. exact (grey_apart 0 ltac:(lia)).
    + cbn [ch colour_config]. rewrite T1, T2. exact Ht.
  - rewrite F4. discriminate.
  - intros t w Ht Ew. destruct (F1 t) as (w' & Ew' & Dw); [ cbn in Ht; lia |]. rewrite Ew in Ew'. injection Ew' as <-. apply Qlt_le_weak. apply dark_heft; [ rewrite L1; reflexivity | rewrite L2; exact F7 | exact Dw ].
Qed.
Example C77_ex_unseen : exists c sc img j p st fg st' w0, step c sc img (j, place (size sc) p) st fg st' /\ inner (size sc) p /\ roi sc (place (size sc) p) = 255 /\
  let b := j * Z.of_nat (locals c) in
  (0 < locals c)%nat /\ shown (dict st) b = Some w0 /\ (0 < heft (frame (lev st)) (woff (lev st)) w0)%Q /\ (0 < Subsense.radius (px st (place (size sc) p)))%Q /\
  (forall t w lc lt, b <= t < b + Z.of_nat (locals c) -> shown (dict st) t = Some w -> limits c (px st (place (size sc) p)) lc lt -> ~ fits (ch c) (lut (lev st)) (size sc) img p lc lt w) /\
  (forall a lc lt, 0 <= a < Z.of_nat (globals c) -> limits c (px st (place (size sc) p)) lc lt ->
     ~ resembles (ch c) (pixel_of (ch c) (size sc) img p) (contrast (ch c) (lut (lev st)) (size sc) img p) lc lt (cells (glob st) a)).
Proof.
  destruct black_state as (sc & st & R & [F1 _ F3 F4 (F5 & F6 & F7 & F8 & F9 & F10)]).
  destruct (C77_frame _ _ _ _ _ _ _ 0 0 0 0 (fun _ => 80) R ltac:(intros i; lia) ltac:(lia) ltac:(lia)) as [[_ X]|(m & st' & s & s' & _ & _ & _ & (D1 & D2 & _ & _ & D5) & (L1 & L2 & _ & _ & L5) & W & _)]; [ cbn in X; lia |].
  destruct (pxs sc) as [|i l] eqn:Ei; [ discriminate F5 |]. cbn [hd] in F5. subst i. destruct (first_numbered 18 l) as [l' El]. rewrite El in W. destruct (walk_first _ _ _ _ _ _ W) as (fg & s1 & m1 & St & _). destruct (F1 0 ltac:(lia)) as (w0 & E0 & Dw0).
  exists colour_config, sc, (fun _ => 80), 0, (2, 2), s, fg, s1, w0. rewrite F8. change (place (8, 8) (2, 2)) with 18. split; [ exact St |]. split; [ unfold inner; cbn; lia |]. split; [ exact F6 |]. cbv zeta. rewrite D1, D2, D5, L5. split; [ cbn; lia |]. split; [ exact E0 |].
  split; [ apply dark_heft; [ rewrite L1; reflexivity | rewrite L2; exact F7 | exact Dw0 ] |]. split; [ rewrite F4; reflexivity |]. split.
  - intros t w lc lt Ht Ew Hl [(d & Ed & Ld) _]. destruct (black_limits _ _ _ F4 Hl) as [-> _]. destruct (F1 t) as (w' & Ew' & Dw); [ cbn in Ht; lia |]. rewrite Ew in Ew'. injection Ew' as <-. unfold dark in Dw. rewrite !andb_true_iff in Dw.
    pose proof (far_80 (colour w) d (dark_gap _ (proj1 (proj1 (proj1 Dw)))) (or_introl Ed)). lia.
  - intros a lc lt Ha Hl [(d & Ed & Ld) _]. destruct (black_limits _ _ _ F4 Hl) as [-> _]. pose proof (far_80 _ d (dark_gap _ (F3 a ltac:(cbn in Ha; lia))) (or_intror Ed)). lia.
Qed.
