(* C72: LOBSTER keeps what it saw near each pixel and calls a pixel background when enough of that resembles it; its first model is spoilt at the borders. *)
From Coq Require Import ZArith QArith Qround List Bool Lia Lqa.
From Verif Require Import Lib.Grid Model.Lbsp Model.RoiTable Spec.Subsense Spec.Vibe Model.Lobster Spec.Lobster.
From Verif Require Proofs.Lobster Proofs.LobsterRun Proofs.LearningRate.
Import ListNotations.
Open Scope Z_scope.

Definition colours (c : config) (size : Z * Z) (st : state) (s : nat) (p : Z * Z) (ch : Z) : Z := col st s (place size p * channels c + ch).
Definition textures (c : config) (size : Z * Z) (st : state) (s : nat) (p : Z * Z) (ch : Z) : Z := dsc st s (place size p * channels c + ch).
Definition unchanged (c : config) (size : Z * Z) (st st' : state) (s : nat) (p : Z * Z) : Prop := forall ch, 0 <= ch < channels c ->
  colours c size st' s p ch = colours c size st s p ch /\ textures c size st' s p ch = textures c size st s p ch.
Definition from (c : config) (size : Z * Z) (im : Z -> Z) (q : Z * Z) (st : state) (s : nat) (p : Z * Z) : Prop :=
  taken (channels c) (lut_of c) size im q (colours c size st s p) (textures c size st s p).
(* an initialized model and what was done to it since *)
Definition reached (c : config) (rnd : nat -> Z) (size : Z * Z) (img : Z -> Z) (pxs : list Z) (st0 : state) (l : list event) (st : state) : Prop :=
  (forall n, 0 <= rnd n) /\ (0 < samples c)%nat /\ (channels c = 1 \/ channels c = 3) /\ byte_image img /\ bytes_only l /\
  (exists cur given, initialize c rnd cur given size img = Done (pxs, st0)) /\ play c rnd size pxs l st0 = Some st.

(* No call ever touches memory outside the buffers. *)
Theorem C72_defined : forall c rnd size cur given img l, (forall n, 0 <= rnd n) -> (0 < samples c)%nat -> channels c = 1 \/ channels c = 3 -> byte_image img -> bytes_only l ->
  initialize c rnd cur given size img <> Fault /\
  forall pxs st0, initialize c rnd cur given size img = Done (pxs, st0) -> play c rnd size pxs l st0 <> None /\ (forall p, in_image size p -> In (place size p) pxs -> inner size p).
Proof.
  intros c rnd size cur given img l Hr Hn Hk B Bl. split.
  - destruct (LobsterRun.initialize_ok c rnd size Hr Hn Hk cur given img B) as [ -> | (roi & st & _ & -> & _) ]; discriminate.
  - intros pxs st0 E. destruct (LobsterRun.reachable c rnd size cur given img pxs st0 l Hr Hn Hk B Bl E) as (L & _ & _ & st & -> & _). split; [ discriminate | ].
    intros p Hp I. destruct (L _ I) as (q & Hq & X). apply Lobster.place_inj in X; auto using Lobster.inner_image. subst. exact Hq.
Qed.
Print Assumptions C72_defined.

(* A pixel of the region is background exactly when enough of its samples, as they are when it is reached, resemble it; the mask has each pixel of the region once. *)
Theorem C72_decision : forall c rnd size img pxs st0 l st f rate, reached c rnd size img pxs st0 l st -> byte_image f -> 0 < rate ->
  exists m st', apply c rnd rate size pxs f st = Done (m, st') /\ map fst m = pxs /\ NoDup pxs /\
    forall p, in_image size p -> In (place size p) pxs -> exists pre post m1 st1 fg, pxs = pre ++ place size p :: post /\ apply_pixels c rnd rate size f pre st = Some (m1, st1) /\
      (forall b, In (place size p, b) m <-> b = fg) /\
      (fg = false <-> at_least (required c) (fun s => similar (channels c) (colour_threshold c) (texture_threshold c) (lut_of c) size f p (colours c size st1 s p) (textures c size st1 s p)) (seq 0 (samples c))).
Proof.
  intros c rnd size img pxs st0 l st f rate (Hr & Hn & Hk & B & Bl & (cur & given & E) & Pl) Bf R.
  destruct (LobsterRun.reachable c rnd size cur given img pxs st0 l Hr Hn Hk B Bl E) as (L & ND & _ & st' & E' & [P1 P2 P3]). rewrite Pl in E'. injection E' as <-.
  destruct (LobsterRun.apply_ok c rnd size Hr Hn Hk rate pxs f st Bf P1 L) as [(Y & _)|(_ & m & st1 & EA & Mm & Fr & ->)]; [ lia | ].
  eexists m, _. split; [ reflexivity | ]. split; auto. split; auto. intros p Hp I. apply in_split in I. destruct I as (pre & post & ->).
  destruct (LobsterRun.pixel_decision c rnd size Hr Hn Hk rate f pre p post st m st1 Bf P1 L Hp EA) as (m1 & sta & fg & m2 & E1 & E2 & _ & _ & _ & D).
  exists pre, post, m1, sta, fg. split; auto. split; auto. split; [ | exact D ]. intros b. rewrite E2. apply LobsterRun.fst_unique. rewrite <- E2, Mm. exact ND.
Qed.
Print Assumptions C72_decision.

(* Whatever was done, the samples of the pixels of the region are colours and textures seen together at a point not more than 3 away,
   in the first image (made black outside of the region) or in a frame. *)
Theorem C72_provenance : forall c rnd size img pxs st0 l st, reached c rnd size img pxs st0 l st ->
  masked (channels c) size pxs img (seen st0) /\
  forall s p, (s < samples c)%nat -> in_image size p -> In (place size p) pxs ->
    exists im q, (im = seen st0 \/ In im (frames l)) /\ inner size q /\ within 3 p q /\ from c size im q st s p.
Proof.
  intros c rnd size img pxs st0 l st (Hr & Hn & Hk & B & Bl & (cur & given & E) & Pl).
  destruct (LobsterRun.reachable c rnd size cur given img pxs st0 l Hr Hn Hk B Bl E) as (L & ND & M & st' & E' & [P1 P2 P3]). rewrite Pl in E'. injection E' as <-. split; [ exact M | exact P3 ].
Qed.
Print Assumptions C72_provenance.

(* A frame changes samples only to what is at a background pixel of it not more than 1 away; a frame all in the foreground changes nothing but the last frame and mask. *)
Theorem C72_updates : forall c rnd size img pxs st0 l st f rate, reached c rnd size img pxs st0 l st -> byte_image f -> 0 < rate ->
  exists m st', apply c rnd rate size pxs f st = Done (m, st') /\ seen st' = f /\ fgmask st' = blur c m /\
    (forall s p, in_image size p -> unchanged c size st st' s p \/
      ((s < samples c)%nat /\ inner size p /\ exists q, inner size q /\ In (place size q, false) m /\ within 1 p q /\ from c size f q st' s p)) /\
    ((forall i b, In (i, b) m -> b = true) -> col st' = col st /\ dsc st' = dsc st /\ used st' = used st).
Proof.
  intros c rnd size img pxs st0 l st f rate (Hr & Hn & Hk & B & Bl & (cur & given & E) & Pl) Bf R.
  destruct (LobsterRun.reachable c rnd size cur given img pxs st0 l Hr Hn Hk B Bl E) as (L & ND & _ & st' & E' & [P1 P2 P3]). rewrite Pl in E'. injection E' as <-.
  destruct (LobsterRun.apply_ok c rnd size Hr Hn Hk rate pxs f st Bf P1 L) as [(Y & _)|(_ & m & st1 & EA & Mm & Fr & ->)]; [ lia | ].
  eexists m, _. split; [ reflexivity | ]. split; auto. split; auto. destruct Fr as [F1 F2 F3 F4]. split.
  - intros s p Hp. destruct (F3 s p Hp) as [X|(q & A1 & A2 & A3 & A4 & A5 & A6)]; [ left; exact X | right ]. split; auto. split; auto. exists q. auto.
  - intros X. rewrite (F4 X). auto.
Qed.
Print Assumptions C72_updates.

(* Nothing is learnt when no random number is a multiple of the learning rate. *)
Theorem C72_rate : forall c rnd rate size pxs f st m st', (forall k, rnd k mod rate <> 0) -> apply c rnd rate size pxs f st = Done (m, st') -> col st' = col st /\ dsc st' = dsc st.
Proof. intros c rnd rate size pxs f st m st' H. exact (LearningRate.lobster_kept c rnd rate size H f pxs st m st'). Qed.
Print Assumptions C72_rate.

(* Refreshing takes a run of consecutive samples, of the pixels that are not foreground unless forced, from the last frame at points which are not foreground unless forced;
   when forced all of them are taken anew. *)
Theorem C72_refresh : forall c rnd size img pxs st0 l st frac force, reached c rnd size img pxs st0 l st ->
  (refreshModel c rnd size frac force pxs st = Refused <-> ~ (0 < frac /\ frac <= 1)%Q) /\
  ((0 < frac /\ frac <= 1)%Q -> exists st' start, refreshModel c rnd size frac force pxs st = Done st' /\ seen st' = seen st /\ fgmask st' = fgmask st /\
    let num := if Qle_bool 1 frac then samples c else Z.to_nat (Qfloor (frac * inject_Z (Z.of_nat (samples c)))) in
    let chosen s := exists j, (j < num)%nat /\ s = Nat.modulo (start + j) (samples c) in
    let renewed s p := exists q, inner size q /\ within 3 p q /\ (force = true \/ fgmask st (place size q) = false) /\ from c size (seen st) q st' s p in
    (forall s p, in_image size p -> unchanged c size st st' s p \/ (In (place size p) pxs /\ (force = true \/ fgmask st (place size p) = false) /\ chosen s /\ renewed s p)) /\
    (force = true -> forall s p, in_image size p -> In (place size p) pxs -> chosen s -> renewed s p)).
Proof.
  intros c rnd size img pxs st0 l st frac force (Hr & Hn & Hk & B & Bl & (cur & given & E) & Pl).
  destruct (LobsterRun.reachable c rnd size cur given img pxs st0 l Hr Hn Hk B Bl E) as (L & ND & _ & st' & E' & [P1 P2 P3]). rewrite Pl in E'. injection E' as <-.
  assert (W : forall start num s, In s (Lobster.window c start num) <-> exists j, (j < num)%nat /\ s = Nat.modulo (start + j) (samples c)).
  { intros start num s. unfold Lobster.window. rewrite in_map_iff. split.
    - intros (n & <- & I). apply in_seq in I. exists (n - start)%nat. split; [ lia | ]. f_equal. lia.
    - intros (j & J & ->). exists (start + j)%nat. split; auto. apply in_seq. lia. }
  destruct (LobsterRun.refreshModel_ok c rnd size Hr Hn Hk frac force pxs st P1 L) as [(X & ->)|(X & st2 & -> & A1 & A2 & A3 & start & A4 & A5)].
  - split; [ split; auto | ]. intros Y. contradiction.
  - split; [ split; [ discriminate | contradiction ] | ]. intros _. exists st2, start. split; auto. split; auto. split; auto. cbv zeta in *. split.
    + intros s p Hp. destruct (A4 s p Hp) as [Y|(Y1 & Y2 & Y3 & Y4)]; [ left; exact Y | right ]. split; auto. split; auto. split; [ apply W; exact Y3 | exact Y4 ].
    + intros F s p Hp I Ch. apply (A5 F s p Hp I). apply W. exact Ch.
Qed.
Print Assumptions C72_refresh.

(* In a scene of one colour the pixels far enough from what is outside of the region are never foreground. *)
Theorem C72_static : forall c rnd size img pxs st0 l st f rate tint, reached c rnd size img pxs st0 l st -> byte_image f -> 0 < rate ->
  (required c <= samples c)%nat -> 0 <= colour_threshold c -> 0 <= texture_threshold c ->
  uniform (channels c) size tint img -> (forall im, In im (frames l) -> uniform (channels c) size tint im) -> uniform (channels c) size tint f ->
  exists m st', apply c rnd rate size pxs f st = Done (m, st') /\ map fst m = pxs /\
    forall p b, in_image size p -> (forall q, in_image size q -> within 5 p q -> In (place size q) pxs) -> In (place size p, b) m -> b = false.
Proof.
  intros c rnd size img pxs st0 l st f rate tint (Hr & Hn & Hk & B & Bl & (cur & given & E) & Pl) Bf R Rq Tc Tt U Ul Uf.
  exact (LobsterRun.static c rnd size Hr Hn Hk cur given img pxs st0 tint l st rate f B Rq Tc Tt E U Bl Ul Pl R Bf Uf).
Qed.
Print Assumptions C72_static.

(* BackgroundSubtractorLBSP.cpp:29-30 and 42-43 with the default thresholds of LOBSTER *)
Definition default_lut (k : Z) (t : Z) : Z := sat_uchar (half_even (if k =? 1 then inject_Z t * (333 # 1000) / 3 else inject_Z t * (333 # 1000))%Q).
Definition example (k : Z) (n r : nat) : config :=
  {| channels := k; colour_threshold := 30; texture_threshold := 4; samples := n; required := r; lut_of := default_lut k; blur := fun m i => existsb (fun ib => (fst ib =? i) && snd ib) m |}.
Definition started (c : config) (rnd : nat -> Z) (size : Z * Z) (img : Z -> Z) : list Z * state :=
  match initialize c rnd None None size img with Done r => r | _ => ([], {| col := fun _ _ => 0; dsc := fun _ _ => 0; seen := img; fgmask := fun _ => false; used := 0%nat |}) end.
Definition shown (o : outcome (list (Z * bool) * state)) : list (Z * bool) := match o with Done r => fst r | _ => [] end.
Lemma started_done c rnd size img : (match initialize c rnd None None size img with Done _ => true | _ => false end) = true ->
  initialize c rnd None None size img = Done (fst (started c rnd size img), snd (started c rnd size img)).
Proof. unfold started. destruct (initialize c rnd None None size img) as [[]| |]; [ reflexivity | discriminate | discriminate ]. Qed.

Definition after (st : state) (o : outcome (list (Z * bool) * state)) : state := match o with Done r => snd r | _ => st end.
Lemma applied st o : (match o with Done _ => true | _ => false end) = true -> o = Done (shown o, after st o).
Proof. destruct o as [[]| |]; [ reflexivity | discriminate | discriminate ]. Qed.

(* Near the border it can be foreground at once: the first model is made from an image that is black outside of the region, so its textures are those of an edge. *)
Theorem C72_static_border_refuted : exists c rnd size img pxs st0 tint p m st', reached c rnd size img pxs st0 [] st0 /\ (required c <= samples c)%nat /\ 0 <= colour_threshold c /\ 0 <= texture_threshold c /\
  uniform (channels c) size tint img /\ apply c rnd 16 size pxs img st0 = Done (m, st') /\ in_image size p /\ In (place size p, true) m.
Proof.
  set (r := started (example 1 3 2) (fun _ => 0) (5, 5) (fun _ => 100)). set (o := apply (example 1 3 2) (fun _ => 0) 16 (5, 5) (fst r) (fun _ => 100) (snd r)).
  exists (example 1 3 2), (fun _ => 0), (5, 5), (fun _ => 100), (fst r), (snd r), (fun _ => 100), (2, 2), (shown o), (after (snd r) o). split.
  { split; [ intros; lia | ]. split; [ cbn; lia | ]. split; [ left; reflexivity | ]. split; [ intros i; lia | ]. split; [ constructor | ]. split; [ | reflexivity ].
    exists None, None. apply started_done. vm_compute. reflexivity. }
  split; [ cbn; lia | ]. split; [ cbn; lia | ]. split; [ cbn; lia | ]. split; [ intros q ch _ _; reflexivity | ]. split; [ apply applied; vm_compute; reflexivity | ]. split; [ split; cbn; lia | ]. vm_compute. tauto.
Qed.
Print Assumptions C72_static_border_refuted.

(* A fraction that is accepted may refresh nothing. *)
Theorem C72_small_fraction_refuted : exists c rnd size img pxs st0 frac st', reached c rnd size img pxs st0 [] st0 /\ (0 < frac /\ frac <= 1)%Q /\
  refreshModel c rnd size frac true pxs st0 = Done st' /\ (0 < length pxs)%nat /\ col st' = col st0 /\ dsc st' = dsc st0.
Proof.
  set (r := started (example 1 3 2) (fun _ => 0) (5, 5) (fun _ => 100)).
  exists (example 1 3 2), (fun _ => 0), (5, 5), (fun _ => 100), (fst r), (snd r), (3 # 10)%Q, (tick (snd r)). split.
  { split; [ intros; lia | ]. split; [ cbn; lia | ]. split; [ left; reflexivity | ]. split; [ intros i; lia | ]. split; [ constructor | ]. split; [ | reflexivity ].
    exists None, None. apply started_done. vm_compute. reflexivity. }
  split; [ split; lra | ]. split; [ | split; [ apply Nat.ltb_lt; vm_compute; reflexivity | split; [ exact eq_refl | exact eq_refl ] ] ].
  unfold refreshModel. replace (Z.to_nat (Qfloor _)) with 0%nat by reflexivity. generalize (Z.to_nat (0 mod Z.of_nat (samples (example 1 3 2)))), (fst r), (tick (snd r)).
  intros start pxs st. assert (X : refresh (example 1 3 2) (fun _ => 0) (5, 5) true start 0 pxs st = Some st) by (unfold refresh; induction pxs; cbn [iter seq]; auto).
  rewrite X. reflexivity.
Qed.
Print Assumptions C72_small_fraction_refuted.

(* With an infinite learning rate, asked for to stop learning, the model still learns when rand() gives 0. *)
Theorem C72_infinite_rate_refuted : exists c rnd size img f pxs st0 m st' s p, reached c rnd size img pxs st0 [] st0 /\ byte_image f /\
  apply c rnd (2 ^ 64 - 1) size pxs f st0 = Done (m, st') /\ (s < samples c)%nat /\ In (place size p) pxs /\ colours c size st' s p 0 <> colours c size st0 s p 0.
Proof.
  set (r := started (example 1 3 1) (fun _ => 0) (15, 15) (fun _ => 100)).
  exists (example 1 3 1), (fun _ => 0), (15, 15), (fun _ => 100), (fun _ => 105), (fst r), (snd r).
  set (o := apply (example 1 3 1) (fun _ => 0) (2 ^ 64 - 1) (15, 15) (fst r) (fun _ => 105) (snd r)). exists (shown o), (after (snd r) o), 0%nat, (7, 7). split.
  { split; [ intros; lia | ]. split; [ cbn; lia | ]. split; [ left; reflexivity | ]. split; [ intros i; lia | ]. split; [ constructor | ]. split; [ | reflexivity ].
    exists None, None. apply started_done. vm_compute. reflexivity. }
  split; [ intros i; lia | ]. split; [ apply applied; vm_compute; reflexivity | ]. split; [ cbn; lia | ]. split; [ vm_compute; tauto | ]. vm_compute. discriminate.
Qed.
Print Assumptions C72_infinite_rate_refuted.

(* Images of 4 channels are accepted but read as if they had 3: a scene of one colour is foreground, far from any border. *)
Theorem C72_four_channels_refuted : exists c rnd size img pxs st0 tint p m st', (forall n, 0 <= rnd n) /\ channels c = 4 /\ byte_image img /\ uniform (channels c) size tint img /\
  initialize c rnd None None size img = Done (pxs, st0) /\ apply c rnd 16 size pxs img st0 = Done (m, st') /\ (required c <= samples c)%nat /\
  in_image size p /\ (forall q, in_image size q -> within 5 p q -> In (place size q) pxs) /\ In (place size p, true) m.
Proof.
  set (img := fun i => nth (Z.to_nat (i mod 4)) [50; 120; 200; 255] 0).
  set (r := started (example 4 1 1) (fun _ => 0) (16, 16) img).
  exists (example 4 1 1), (fun _ => 0), (16, 16), img, (fst r), (snd r), (fun ch => nth (Z.to_nat ch) [50; 120; 200; 255] 0), (7, 7).
  set (o := apply (example 4 1 1) (fun _ => 0) 16 (16, 16) (fst r) img (snd r)). exists (shown o), (after (snd r) o). split; [ intros; lia | ]. split; [ reflexivity | ]. split.
  { intros i. unfold img. destruct (Nat.lt_ge_cases (Z.to_nat (i mod 4)) 4) as [H|H].
    - destruct (Z.to_nat (i mod 4)) as [|[|[|[|n]]]]; cbn; lia.
    - rewrite nth_overflow by (cbn; lia). lia. }
  split. { intros q ch _ Hch. unfold value, img. cbn [channels example] in *. rewrite (Z.add_comm _ ch), Z.mod_add, Z.mod_small by lia. reflexivity. }
  split; [ apply started_done; vm_compute; reflexivity | ]. split; [ apply applied; vm_compute; reflexivity | ]. split; [ cbn; lia | ]. split; [ split; cbn; lia | ]. split.
  - intros [x y] Hq Wq. unfold within, in_image in *. cbn [fst snd] in *.
    assert (E : forallb (fun yx => existsb (Z.eqb (place (16, 16) (snd yx, fst yx))) (fst r)) (grid 2 12 2 12) = true) by (vm_compute; reflexivity).
    rewrite forallb_forall in E. specialize (E (y, x) ltac:(apply in_grid; cbn [fst snd]; lia)). apply existsb_exists in E. destruct E as (i & I & X). apply Z.eqb_eq in X. cbn [fst snd] in X. rewrite X. exact I.
  - vm_compute. tauto.
Qed.
Print Assumptions C72_four_channels_refuted.

(* The background image lies between the smallest and the greatest sample. *)
Theorem C72_background : forall c st i lo hi, (0 < samples c)%nat -> 0 <= lo -> hi <= 255 -> (forall s, (s < samples c)%nat -> lo <= col st s i <= hi) -> lo <= background c st i <= hi.
Proof. exact LobsterRun.background_between. Qed.
Print Assumptions C72_background.

(* a grey 9x9 scene: a step of 40 in the middle is foreground, the rest is not; the two samples of a pixel average to the background *)
Example C72_ex : let c := example 1 2 1 in let r := started c (fun n => Z.of_nat n * 37) (9, 9) (fun _ => 100) in
  map snd (shown (apply c (fun n => Z.of_nat n * 37) 1 (9, 9) (fst r) (fun _ => 100) (snd r))) <> [] /\
  In (40, true) (shown (apply c (fun n => Z.of_nat n * 37) 1 (9, 9) (fst r) (fun i => if i =? 40 then 160 else 100) (snd r))) /\
  background c (snd r) 40 = 100.
Proof. vm_compute. split; [ discriminate | ]. split; [ tauto | reflexivity ]. Qed.

(* random numbers of 1 and a rate of 2: the frame is processed *)
Example C72_ex_rate : let c := example 1 2 1 in let r := started c (fun _ => 1) (9, 9) (fun _ => 100) in 1 mod 2 <> 0 /\ length (shown (apply c (fun _ => 1) 2 (9, 9) (fst r) (fun _ => 105) (snd r))) = 25%nat.
Proof. vm_compute. split; [ discriminate | reflexivity ]. Qed.
