(* C75: SuBSENSE on whole frames: what its samples are, when a pixel is foreground, what a frame changes, and where still scenes are foreground all the same. *)
From Coq Require Import ZArith QArith Qround List Bool Lia Lqa.
From Verif Require Import Lib.Grid Model.Lbsp Model.RoiTable Spec.Vibe Spec.Lobster Model.Lobster Model.SubsenseFrame Spec.SubsenseFrame.
From Verif Require Model.Subsense Spec.Subsense Proofs.Subsense Proofs.Lobster Proofs.LobsterRun Proofs.SubsensePixel Proofs.SubsenseFrame Proofs.SubsenseRun Proofs.LearningRate Spec.Pawcs Proofs.TextureRule.
Import ListNotations.
Open Scope Z_scope.

Definition colours (c : config) (size : Z * Z) (st : state) (s : nat) (p : Z * Z) (x : Z) : Z := col (mem st) s (place size p * ch c + x).
Definition textures (c : config) (size : Z * Z) (st : state) (s : nat) (p : Z * Z) (x : Z) : Z := dsc (mem st) s (place size p * ch c + x).
(* the last colours and textures looked at *)
Definition last_colour (c : config) (size : Z * Z) (st : state) (p : Z * Z) (x : Z) : Z := seen (mem st) (place size p * ch c + x).
Definition last_texture (c : config) (size : Z * Z) (st : state) (p : Z * Z) (x : Z) : Z := ldesc st (place size p * ch c + x).
Definition unchanged (c : config) (size : Z * Z) (st st' : state) (s : nat) (p : Z * Z) : Prop := forall x, 0 <= x < ch c ->
  colours c size st' s p x = colours c size st s p x /\ textures c size st' s p x = textures c size st s p x.
(* sample s of p was taken from the last frame at q *)
Definition copied (c : config) (size : Z * Z) (st : state) (q : Z * Z) (s : nat) (p : Z * Z) : Prop := forall x, 0 <= x < ch c ->
  colours c size st s p x = last_colour c size st q x /\ textures c size st s p x = last_texture c size st q x.
(* sample s of p is what is at q in a frame, with the thresholds of state st0; q is background in m and not further than it may be, or is p itself right after a reset *)
Definition learnt (c : config) (size : Z * Z) (img : Z -> Z) (m : list (Z * bool)) (shaky : Z -> bool) (st0 st : state) (s : nat) (p : Z * Z) : Prop :=
  (s < count c)%nat /\ inner size p /\ exists q b, inner size q /\ In (place size q, b) m /\ (b = false \/ (Subsense.cooldown (glob st0) <> 0 /\ p = q)) /\
    within (if spread3 c && negb (shaky (place size q)) then 1 else 2) p q /\ taken (ch c) (lut st0) size img q (colours c size st s p) (textures c size st s p).
Definition usable (c : config) (rnd : nat -> Z) (img : Z -> Z) (l : list event) : Prop :=
  (forall n, 0 <= rnd n) /\ (0 < count c)%nat /\ (ch c = 1 \/ ch c = 3) /\ Spec.Subsense.config_ok (loop c) /\ byte_image img /\ proper l.
(* an initialized model and what was done to it since *)
Definition reached (c : config) (rnd : nat -> Z) (size : Z * Z) (img : Z -> Z) (pxs : list Z) (st0 : state) (l : list event) (st : state) : Prop :=
  usable c rnd img l /\ (exists cur given, initialize c rnd cur given size img = Done (pxs, st0)) /\ play c rnd size pxs l st0 = Done st.

Lemma reached_past c rnd size img pxs st0 l st : reached c rnd size img pxs st0 l st ->
  exists pts, pxs = map (place size) pts /\ SubsenseRun.past c size img (fun im => im = img \/ In im (frames l)) (Z.of_nat (length (frames l))) pts st.
Proof.
  intros ((Hr & Hn & Hk & Kc & B & Pl) & (cur & given & E) & Ep).
  destruct (SubsenseRun.reachable c rnd size cur given img pxs st0 l Hr Hn Hk Kc B Pl E) as (pts & -> & [(f & X & _)|[(X & _)|(st' & X & Pa)]]); rewrite Ep in X; try discriminate.
  injection X as <-. exists pts. auto.
Qed.
Lemma applied_processed c rnd size img pxs st0 l st ov ratio f m st' : reached c rnd size img pxs st0 l st -> byte_image f -> (0 <= ratio)%Q -> apply c rnd ov ratio size pxs f st = Done (m, st') ->
  exists pts, pxs = map (place size) pts /\ SubsenseRun.past c size img (fun im => im = img \/ In im (frames l)) (Z.of_nat (length (frames l))) pts st /\ SubsenseRun.processed c size f ratio pts st m st'.
Proof.
  intros R Bf Hr E. destruct (reached_past _ _ _ _ _ _ _ _ R) as (pts & -> & Pa). destruct R as ((Hr' & Hn & Hk & Kc & B & Pl) & _).
  exists pts. split; auto. split; auto.
  destruct (SubsenseRun.apply_ok c rnd size Hr' Hn Hk Kc ov ratio pts f st _ Bf Hr (Zle_0_nat _) (SubsenseRun.a_sane _ _ _ _ _ _ _ Pa)) as [(X & _)|[(X & _)|[(X & _)|[(X & _)|(m' & s' & X & D)]]]];
    rewrite E in X; try discriminate. injection X as <- <-. exact D.
Qed.

(* What can go wrong, and when: no access outside a buffer and no modulo by zero, ever; the region is away from the borders. *)
Theorem C75_faults : forall c rnd size cur given img l, usable c rnd img l ->
  (forall f, initialize c rnd cur given size img <> Fault f) /\ initialize c rnd cur given size img <> Thrown /\
  forall pxs st0, initialize c rnd cur given size img = Done (pxs, st0) -> NoDup pxs /\ (forall i, In i pxs -> exists p, inner size p /\ i = place size p) /\
    (play c rnd size pxs l st0 <> Refused) /\ (play c rnd size pxs l st0 = Thrown -> large c = true /\ (fst size < 8 \/ snd size < 8)) /\
    forall e, play c rnd size pxs l st0 = Fault e -> exists f, e = Loop f /\
      ((f = Subsense.NoFrame /\ avgs c < 4) \/
       (f = Subsense.Shift32 /\ large c = true /\ exists im ov ratio, In (Frame im ov ratio) l /\ (64 <= ratio)%Q) \/
       (f = Subsense.Shift64 /\ 5441 < Z.of_nat (length (frames l)))).
Proof.
  intros c rnd size cur given img l (Hr & Hn & Hk & Kc & B & Pl). pose proof (SubsenseRun.initialize_ok c rnd size Hr Hn Hk cur given img B) as H. split; [ | split ].
  - intros f E. rewrite E in H. destruct H as [(_ & X)|(roi & pts & st & _ & _ & X & _)]; discriminate.
  - intros E. rewrite E in H. destruct H as [(_ & X)|(roi & pts & st & _ & _ & X & _)]; discriminate.
  - intros pxs st0 E. destruct H as [(_ & X)|(roi & pts & st & _ & _ & X & Pa)]; rewrite E in X; [ discriminate | ]. injection X as -> <-.
    pose proof (SubsenseRun.n_pts _ _ _ _ (SubsenseRun.a_sane _ _ _ _ _ _ _ Pa)) as [Fp Nd]. split; [ | split ].
    + clear - Fp Nd. induction pts as [|a pts IH]; cbn [map]; [ constructor | ]. inversion Fp as [|? ? Fa Fb]; subst. inversion Nd as [|? ? Na Nb]; subst. constructor; auto.
      intros J. apply Na. exact (SubsenseFrame.in_places size a pts (Lobster.inner_image _ _ Fa) Fb J).
    + intros i I. apply in_map_iff in I. destruct I as (p & <- & I). exists p. split; auto. rewrite Forall_forall in Fp. auto.
    + destruct (SubsenseRun.reachable c rnd size cur given img _ st0 l Hr Hn Hk Kc B Pl E) as (pts' & Ep & [(f & X & Br)|[(X & La & Sm)|(st' & X & _)]]); rewrite X.
      * split; [ discriminate | ]. split; [ discriminate | ]. intros e Ee. injection Ee as <-. exists f. split; auto. destruct Br as [(A1 & A2)|[(A1 & A2 & A3)|(A1 & A2)]]; [ left; auto | right; left | right; right; auto ].
        split; auto. split; auto. apply Exists_exists in A3. destruct A3 as ([im ov ratio|? ?] & I & R); [ | contradiction ]. exists im, ov, ratio. auto.
      * split; [ discriminate | ]. split; [ intros _ | discriminate ]. split; auto. destruct Sm as [S1|S1]; [ left | right ]; rewrite Z.div_small_iff in S1 by lia; lia.
      * split; [ discriminate | ]. split; discriminate.
Qed.
Print Assumptions C75_faults.

(* A pixel of the region is background exactly when enough of its samples, as the pixels before it have left them, are similar to it in colour and texture,
   with the thresholds its distance factor and instability give. *)
Theorem C75_decision : forall c rnd size img pxs st0 l st ov ratio f m st', reached c rnd size img pxs st0 l st -> byte_image f -> (0 <= ratio)%Q -> (desc c < 2 ^ 60)%Z ->
  apply c rnd ov ratio size pxs f st = Done (m, st') -> map fst m = pxs /\
  forall p, in_image size p -> In (place size p) pxs -> (Subsense.radius (px st (place size p)) < 123 # 2)%Q -> exists m1 fg m2 mid,
    m = m1 ++ (place size p, fg) :: m2 /\
    (forall s p', in_image size p' -> unchanged c size st mid s p' \/ learnt c size f m1 (fun i => Subsense.unstable (px st' i)) st mid s p') /\
    (fg = false <-> Spec.Subsense.at_least (needed c) (fun s => Spec.Subsense.similar (loop c) (Subsense.radius (px st (place size p))) (Subsense.unstable (px st (place size p)))
                       (gaps (ch c) (lut st) size f p (colours c size mid s p) (textures c size mid s p))) (seq 0 (count c))).
Proof.
  intros c rnd size img pxs st0 l st ov ratio f m st' R Bf Hr Hd E. destruct (applied_processed _ _ _ _ _ _ _ _ _ _ _ _ _ R Bf Hr E) as (pts & -> & Pa & D).
  destruct R as ((Hr' & Hn & Hk & Kc & B & Pl) & _). split; [ exact (SubsenseRun.d_pts _ _ _ _ _ _ _ _ D) | ]. intros p Hp I Rd.
  pose proof (SubsenseRun.n_pts _ _ _ _ (SubsenseRun.a_sane _ _ _ _ _ _ _ Pa)) as [Fp Nd]. apply (SubsenseFrame.in_places size p pts Hp Fp) in I.
  pose proof (SubsenseRun.n_inv _ _ _ _ (SubsenseRun.a_sane _ _ _ _ _ _ _ Pa) p I) as Iv. apply in_split in I. destruct I as (pre & post & Ep).
  destruct (SubsenseRun.d_step _ _ _ _ _ _ _ _ D pre p post Ep) as (m1 & fg & m2 & mid & Em & _ & Gm & Um & St). exists m1, fg, m2, mid. split; auto. split; [ exact Um | ].
  apply Proofs.Subsense.decision in St; auto.
  - rewrite St. cbn [SubsenseRun.input_of Subsense.samples]. apply SubsenseRun.at_least_map.
  - split; [ | exact Hr ]. cbn [SubsenseRun.input_of Subsense.samples]. apply Forall_map, Forall_forall. intros s _. apply (SubsensePixel.gaps_range c rnd); auto. apply Gm.
  - apply (Proofs.Subsense.i_radius _ _ _ Iv).
  - unfold Subsense.shift_amount. rewrite Zlt_Qlt. eapply Qle_lt_trans; [ apply Qfloor_le | ]. change (inject_Z 62) with 62%Q. lra.
Qed.
Print Assumptions C75_decision.

(* At every pixel of the region a frame is a step of the feedback loop of C56, on distances in range; so what that step keeps bounded is bounded here. *)
Theorem C75_refines : forall c rnd size img pxs st0 l st ov ratio f m st', reached c rnd size img pxs st0 l st -> byte_image f -> (0 <= ratio)%Q -> apply c rnd ov ratio size pxs f st = Done (m, st') ->
  forall p, in_image size p -> In (place size p) pxs -> exists i fg, Spec.Subsense.input_ok (loop c) i /\ length (Subsense.samples i) = count c /\ Subsense.final i = filtered c m (place size p) /\ Subsense.diff_ratio i = ratio /\
    In (place size p, fg) m /\ Subsense.step (loop c) i (px st (place size p), glob st) = Subsense.Done (fg, (px st' (place size p), glob st')).
Proof.
  intros c rnd size img pxs st0 l st ov ratio f m st' R Bf Hr E p Hp I. destruct (applied_processed _ _ _ _ _ _ _ _ _ _ _ _ _ R Bf Hr E) as (pts & -> & Pa & D).
  destruct R as ((Hr' & Hn & Hk & Kc & B & Pl) & _). pose proof (SubsenseRun.n_pts _ _ _ _ (SubsenseRun.a_sane _ _ _ _ _ _ _ Pa)) as [Fp Nd]. apply (SubsenseFrame.in_places size p pts Hp Fp) in I.
  apply in_split in I. destruct I as (pre & post & Ep). destruct (SubsenseRun.d_step _ _ _ _ _ _ _ _ D pre p post Ep) as (m1 & fg & m2 & mid & Em & _ & Gm & Um & St).
  eexists _, fg. split; [ | split; [ | split; [ | split; [ | split; [ | exact St ] ] ] ] ]; cbn [SubsenseRun.input_of Subsense.samples Subsense.final Subsense.diff_ratio]; auto.
  - split; [ | exact Hr ]. apply Forall_map, Forall_forall. intros s _. apply (SubsensePixel.gaps_range c rnd); auto. apply Gm.
  - now rewrite map_length, seq_length.
  - rewrite Em. apply in_or_app. right. now left.
Qed.
Print Assumptions C75_refines.
Theorem C75_bounds : forall c rnd size img pxs st0 l st, reached c rnd size img pxs st0 l st ->
  let n := Z.of_nat (length (frames l)) in
  Subsense.frame_no (glob st) = n /\ (1 <= Subsense.low_cap (glob st) /\ Subsense.low_cap (glob st) <= Subsense.up_cap (glob st) /\ Subsense.up_cap (glob st) <= 512)%Q /\
  forall p, in_image size p -> In (place size p) pxs -> let x := px st (place size p) in
    (1 <= Subsense.rate x <= 512 /\ (1 # 10) <= Subsense.modulator x <= 10 + inject_Z n /\ 1 <= Subsense.radius x <= 9 + (1 # 100) * (10 + inject_Z n))%Q /\
    Forall Spec.Subsense.unit [Subsense.min_lt x; Subsense.min_st x; Subsense.raw_lt x; Subsense.raw_st x; Subsense.final_lt x; Subsense.final_st x].
Proof.
  intros c rnd size img pxs st0 l st R n. destruct (reached_past _ _ _ _ _ _ _ _ R) as (pts & -> & [[S1 (S2 & S2') (S3 & S4) S5] _ _ _]). split; auto. split; auto.
  intros p Hp I x. apply (SubsenseFrame.in_places size p pts Hp S2) in I. destruct (S5 p I) as [_ _ A1 A2 A3 A4]. fold n in A2, A3. fold x in A1, A2, A3, A4. split; [ | exact A4 ].
  unfold Subsense.FEEDBACK_V_DECR, Subsense.FEEDBACK_R_VAR in *. split; [ exact A1 | ]. split; [ exact A2 | ]. lra.
Qed.
Print Assumptions C75_bounds.

(* Whatever was done, a sample of a pixel of the region is the colour and texture of a point not more than 3 away, together: as they were in the first image or a frame
   when that point is in the region, black and without texture when it is not; or else the colour it had in the first image without texture, when it is in the first row or column looked at.
   So are the last colours and textures. *)
Theorem C75_provenance : forall c rnd size img pxs st0 l st, reached c rnd size img pxs st0 l st ->
  let P := fun im => im = img \/ In im (frames l) in
  (forall s p, (s < count c)%nat -> in_image size p -> In (place size p) pxs ->
    exists q, inner size q /\ within 3 p q /\ kept c size pxs img P q (colours c size st s p) (textures c size st s p)) /\
  (forall q, inner size q -> kept c size pxs img P q (last_colour c size st q) (last_texture c size st q)).
Proof.
  intros c rnd size img pxs st0 l st R P. destruct (reached_past _ _ _ _ _ _ _ _ R) as (pts & -> & [[S1 (S2 & S2') S3 S5] _ A3 A4]). split; [ | exact A3 ].
  intros s p Hs Hp I. apply (SubsenseFrame.in_places size p pts Hp S2) in I. exact (A4 s p Hs I).
Qed.
Print Assumptions C75_provenance.

(* What a frame changes: samples are replaced only by what is at background pixels of the frame nearby, or, right after a reset, at the pixel itself,
   or, by a reset, in an image that counts as large, by what is at a point nearby that is not foreground. The last colours and textures become those of the frame in the region,
   and stay what they were elsewhere. A frame all in the foreground teaches nothing. *)
Theorem C75_updates : forall c rnd size img pxs st0 l st ov ratio f m st', reached c rnd size img pxs st0 l st -> byte_image f -> (0 <= ratio)%Q -> apply c rnd ov ratio size pxs f st = Done (m, st') ->
  fgmask (mem st') = filtered c m /\
  (forall s p, in_image size p -> unchanged c size st st' s p \/ learnt c size f m (fun i => Subsense.unstable (px st' i)) st st' s p \/
    (large c = true /\ (s < count c)%nat /\ In (place size p) pxs /\ filtered c m (place size p) = false /\
     exists q, inner size q /\ within 3 p q /\ filtered c m (place size q) = false /\ copied c size st' q s p)) /\
  (forall p, in_image size p -> In (place size p) pxs -> taken (ch c) (lut st) size f p (last_colour c size st' p) (last_texture c size st' p)) /\
  (forall p x, in_image size p -> ~ In (place size p) pxs -> 0 <= x < ch c -> last_colour c size st' p x = last_colour c size st p x /\ last_texture c size st' p x = last_texture c size st p x) /\
  ((forall i b, In (i, b) m -> b = true) -> Subsense.cooldown (glob st) = 0 -> large c = false -> col (mem st') = col (mem st) /\ dsc (mem st') = dsc (mem st)).
Proof.
  intros c rnd size img pxs st0 l st ov ratio f m st' R Bf Hr E. destruct (applied_processed _ _ _ _ _ _ _ _ _ _ _ _ _ R Bf Hr E) as (pts & -> & Pa & D).
  pose proof (SubsenseRun.n_pts _ _ _ _ (SubsenseRun.a_sane _ _ _ _ _ _ _ Pa)) as [Fp Nd]. destruct D as [D1 D2 D3 D4 D5 D6 D7 D8 D9 D10]. split; auto. split; [ | split; [ | split ] ].
  - intros s p Hp. destruct (D5 s p Hp) as [X|[X|(X1 & X2 & X3 & X4 & q & X5 & X6 & X7 & X8)]]; [ left; exact X | right; left; exact X | right; right ].
    split; auto. split; auto. split; [ now apply in_map | ]. split; auto. exists q. split; auto. split; auto. split; [ destruct X7; [ discriminate | auto ] | exact X8 ].
  - intros p Hp I. apply D6. exact (SubsenseFrame.in_places size p pts Hp Fp I).
  - intros p x Hp I Hx. apply D7; auto. intros J. apply I. now apply in_map.
  - intros A1 A2 A3. destruct (D10 A1 A2 A3) as (B1 & B2 & _). auto.
Qed.
Print Assumptions C75_updates.

(* A learning rate that is given replaces that of the pixels: nothing is learnt when no random number is a multiple of it, of the one used for wide neighbourhoods, or of the lower cap,
   unless there is a reset. *)
Theorem C75_override : forall c rnd ov ratio size pxs f st m st', 0 < ov -> (forall k, rnd k mod ov <> 0 /\ rnd k mod (ov / 2 + 1) <> 0 /\ rnd k mod Qfloor (Subsense.low_cap (glob st)) <> 0) ->
  Subsense.cooldown (glob st) = 0 -> large c = false -> apply c rnd ov ratio size pxs f st = Done (m, st') -> col (mem st') = col (mem st) /\ dsc (mem st') = dsc (mem st).
Proof.
  intros c rnd ov ratio size pxs f st m st' O H C L. refine (LearningRate.subsense_kept c rnd ov size O _ ratio pxs f st m st' C _ L); intros k; destruct (H k) as (A & B & D); auto.
Qed.
Print Assumptions C75_override.

(* Refreshing takes a run of consecutive samples, of the pixels that are not foreground unless forced, from the last colours and textures at points which are not foreground unless forced. *)
Theorem C75_refresh : forall c rnd size img pxs st0 l st frac force, reached c rnd size img pxs st0 l st ->
  (refreshModel c rnd size (ldesc st) frac force pxs (mem st) = Refused <-> ~ (0 < frac /\ frac <= 1)%Q) /\
  ((0 < frac /\ frac <= 1)%Q -> exists st' start, act c rnd size pxs (Refresh frac force) st = Done st' /\ seen (mem st') = seen (mem st) /\ fgmask (mem st') = fgmask (mem st) /\ ldesc st' = ldesc st /\ px st' = px st /\ glob st' = glob st /\ lut st' = lut st /\
    let num := if Qle_bool 1 frac then count c else Z.to_nat (Qfloor (frac * inject_Z (Z.of_nat (count c)))) in
    let chosen s := exists j, (j < num)%nat /\ s = Nat.modulo (start + j) (count c) in
    let renewed s p := exists q, inner size q /\ within 3 p q /\ (force = true \/ fgmask (mem st) (place size q) = false) /\ copied c size st' q s p in
    (forall s p, in_image size p -> unchanged c size st st' s p \/ (In (place size p) pxs /\ (force = true \/ fgmask (mem st) (place size p) = false) /\ chosen s /\ renewed s p)) /\
    (force = true -> forall s p, in_image size p -> In (place size p) pxs -> chosen s -> renewed s p)).
Proof.
  intros c rnd size img pxs st0 l st frac force R. destruct (reached_past _ _ _ _ _ _ _ _ R) as (pts & -> & [[S1 (S2 & S2') S3 S5] _ A3 A4]). destruct R as ((Hr & Hn & Hk & Kc & B & Pl) & _).
  assert (W : forall start num s, In s (SubsenseFrame.window c start num) <-> exists j, (j < num)%nat /\ s = Nat.modulo (start + j) (count c)).
  { intros start num s. unfold SubsenseFrame.window. rewrite in_map_iff. split.
    - intros (n & <- & I). apply in_seq in I. exists (n - start)%nat. split; [ lia | ]. f_equal. lia.
    - intros (j & J & ->). exists (start + j)%nat. split; auto. apply in_seq. lia. }
  cbn [act]. destruct (SubsenseFrame.refreshModel_ok c rnd size Hr Hn Hk (ldesc st) frac force pts (mem st) (SubsensePixel.g_ldesc _ S1) (SubsensePixel.g_sound _ S1) S2) as [(X & ->)|(X & m' & -> & A1 & A2 & A5 & start & A6 & A7)]; cbn [obind].
  - split; [ split; auto | ]. intros Y. contradiction.
  - split; [ split; [ discriminate | contradiction ] | ]. intros _. eexists _, start. split; [ reflexivity | ]. cbn [mem ldesc px glob lut seen fgmask]. do 6 (split; auto). cbv zeta in *. split.
    + intros s p Hp. destruct (A6 s p Hp) as [Y|(Y1 & Y2 & Y3 & q & Y4 & Y5 & Y6 & Y7)]; [ left; exact Y | right ]. split; [ now apply in_map | ]. split; auto. split; [ apply W; exact Y3 | ].
      exists q. do 3 (split; auto). intros x Hx. destruct (Y7 x Hx) as [Z1 Z2]. unfold last_colour. cbn [mem ldesc]. rewrite A2. split; [ exact Z1 | exact Z2 ].
    + intros F s p Hp I Ch. apply (SubsenseFrame.in_places size p pts Hp S2) in I. destruct (A7 (or_introl F) s p I (proj2 (W _ _ _) Ch)) as (q & Y4 & Y5 & Y6 & Y7).
      exists q. do 3 (split; auto). intros x Hx. destruct (Y7 x Hx) as [Z1 Z2]. unfold last_colour. cbn [mem ldesc]. rewrite A2. split; [ exact Z1 | exact Z2 ].
Qed.
Print Assumptions C75_refresh.

(* The thresholds of textures stay bytes between their limits, never decrease with the brightness, and a frame moves none by more than one. *)
Theorem C75_table : forall c rnd size img pxs st0 l st, reached c rnd size img pxs st0 l st ->
  table c (lut st) /\ (forall t, 0 <= t <= 255 -> 0 <= lut st t <= 255) /\
  forall ov ratio f m st', byte_image f -> (0 <= ratio)%Q -> apply c rnd ov ratio size pxs f st = Done (m, st') -> forall t, 0 <= t <= 255 -> Z.abs (lut st' t - lut st t) <= 1.
Proof.
  intros c rnd size img pxs st0 l st R. destruct (reached_past _ _ _ _ _ _ _ _ R) as (pts & -> & Pa). pose proof (SubsenseRun.a_table _ _ _ _ _ _ _ Pa) as T. split; auto. split.
  - intros t Ht. exact (SubsenseRun.table_byte c (lut st) t T Ht).
  - intros ov ratio f m st' Bf Hr E t Ht. destruct (applied_processed _ _ _ _ _ _ _ _ _ _ _ _ _ R Bf Hr E) as (pts' & _ & _ & D). rewrite (SubsenseRun.d_lut _ _ _ _ _ _ _ _ D).
    destruct (SubsenseRun.adapt_entry c (nz st') (nz st) (lut st) t T Ht) as [->|[(-> & _)|(-> & _)]]; lia.
Qed.
Print Assumptions C75_table.
(* What moves them: the share of pixels with at least two (in color four) values around them further away than the threshold. Two frames in a row with a share below a tenth lower the thresholds, two above a half raise them. *)
Definition textured_share (c : config) (size : Z * Z) (lut f : Z -> Z) (pts : list (Z * Z)) (q : Q) : Prop :=
  (q == inject_Z (Grid.count (fun p => (if ch c =? 1 then 2 else 4) <=? Spec.Pawcs.contrast (ch c) lut size f p) pts) / inject_Z (Z.of_nat (length pts)))%Q.
Theorem C75_table_rule : forall c rnd size img pxs st0 l st ov ratio f m st', reached c rnd size img pxs st0 l st -> byte_image f -> (0 <= ratio)%Q -> apply c rnd ov ratio size pxs f st = Done (m, st') ->
  exists pts, pxs = map (place size) pts /\ Forall (inner size) pts /\ textured_share c size (lut st) f pts (nz st') /\
  forall t, 0 <= t <= 255 ->
    ((nz st < 1 # 10)%Q /\ (nz st' < 1 # 10)%Q -> lut st' t = if least c t <? lut st t then lut st t - 1 else lut st t) /\
    ((1 # 2 < nz st)%Q /\ (1 # 2 < nz st')%Q -> lut st' t = if lut st t <? most c then lut st t + 1 else lut st t) /\
    (((1 # 10 <= nz st)%Q \/ (1 # 10 <= nz st')%Q) /\ ((nz st <= 1 # 2)%Q \/ (nz st' <= 1 # 2)%Q) -> lut st' t = lut st t).
Proof.
  intros c rnd size img pxs st0 l st ov ratio f m st' R Bf Hr E. destruct (reached_past _ _ _ _ _ _ _ _ R) as (pts & -> & Pa). exists pts. split; auto.
  pose proof (SubsenseRun.n_pts _ _ _ _ (SubsenseRun.a_sane _ _ _ _ _ _ _ Pa)) as [Fp _]. split; auto. destruct R as ((Hr' & Hn & Hk & _) & _).
  destruct (TextureRule.apply_rule c rnd size Hr' Hn Hk ov ratio pts f st m st' Bf Fp E) as [A1 A2]. split; [ unfold textured_share; rewrite A1; reflexivity | ]. clear A1.
  intros t Ht. rewrite A2. apply (TextureRule.adapt_rule c). exact (SubsenseRun.a_table _ _ _ _ _ _ _ Pa). exact Ht.
Qed.
Print Assumptions C75_table_rule.
Theorem C75_table_monotone : forall c rnd size img pxs st0 l st, reached c rnd size img pxs st0 l st -> (0 <= rel c)%Q -> forall t t', 0 <= t -> t <= t' -> t' <= 255 -> lut st t <= lut st t'.
Proof.
  intros c rnd size img pxs st0 l st (_ & (cur & given & E) & P) Hrel. apply SubsenseRun.initialize_lut in E. refine (SubsenseRun.play_monotone c rnd size pxs Hrel l st0 st _ _ P); rewrite E; [ apply SubsenseRun.table_first | ].
  intros t t' _ H _. apply SubsenseRun.first_mono; auto.
Qed.
Print Assumptions C75_table_monotone.

(* In a scene of one colour the pixels with only pixels of the region around them are never foreground. *)
Theorem C75_static : forall c rnd size img pxs st0 l st ov ratio f tint m st', reached c rnd size img pxs st0 l st -> byte_image f -> (0 <= ratio)%Q -> (needed c <= count c)%nat ->
  uniform (ch c) size tint img -> (forall im, In im (frames l) -> uniform (ch c) size tint im) -> uniform (ch c) size tint f -> apply c rnd ov ratio size pxs f st = Done (m, st') ->
  forall p fg, inner size p -> (forall q, inner size q -> within 3 p q -> In (place size q) pxs) -> In (place size p, fg) m -> fg = false.
Proof.
  intros c rnd size img pxs st0 l st ov ratio f tint m st' R Bf Hr Rq U Ul Uf E p fg Hp Nb I.
  destruct (reached_past _ _ _ _ _ _ _ _ R) as (pts & -> & Pa). destruct R as ((Hr' & Hn & Hk & Kc & B & Pl) & _).
  exact (SubsenseRun.static c rnd size Hr' Hn Hk Kc tint img pts st _ l ov ratio f m st' Rq (Zle_0_nat _) Hr U Ul Bf Uf Pa E p fg Hp Nb I).
Qed.
Print Assumptions C75_static.

(* A reset of the model of a large image touches no sample when fewer than ten are kept for each pixel. *)
Theorem C75_reset_few_samples : forall c rnd size img pxs st0 l st force, reached c rnd size img pxs st0 l st -> (count c < 10)%nat ->
  exists m', refreshModel c rnd size (ldesc st) (1 # 10) force pxs (mem st) = Done m' /\ col m' = col (mem st) /\ dsc m' = dsc (mem st).
Proof.
  intros c rnd size img pxs st0 l st force R Hc. destruct (C75_refresh c rnd size img pxs st0 l st (1 # 10) force R) as [_ H]. destruct (H ltac:(split; lra)) as (st' & _ & E & _). cbn [act] in E.
  destruct (refreshModel c rnd size (ldesc st) (1 # 10) force pxs (mem st)) as [m'| | |] eqn:Em; try discriminate. exists m'. split; auto. clear H E.
  exact (SubsenseRun.refresh_none c rnd size (ldesc st) force pxs (mem st) m' Hc Em).
Qed.
Print Assumptions C75_reset_few_samples.

(* When the image counts as large but one of its sides is less than 8, no frame is ever finished: the down-sampled image would have no pixel. *)
Theorem C75_thin_images : forall c rnd size img pxs st0 l st ov ratio f, reached c rnd size img pxs st0 l st -> byte_image f -> (0 <= ratio)%Q -> large c = true -> 0 <= fst size < 8 \/ 0 <= snd size < 8 ->
  (forall r, apply c rnd ov ratio size pxs f st <> Done r) /\ (4 <= avgs c -> Z.of_nat (length (frames l)) < 5441 -> (ratio < 64)%Q -> apply c rnd ov ratio size pxs f st = Thrown).
Proof.
  intros c rnd size img pxs st0 l st ov ratio f R Bf Hr La Sm.
  assert (N : forall r, apply c rnd ov ratio size pxs f st <> Done r).
  { intros r. unfold apply. destruct (Subsense.factor _ _); [ | discriminate ]. destruct (Subsense.factor _ _); [ | discriminate ]. destruct (apply_pixels _ _ _ _ _ _ _ _ _); cbn [obind]; try discriminate.
    rewrite La. replace (_ || _) with true; [ discriminate | ]. symmetry. apply orb_true_iff. destruct Sm as [H|H]; [ left | right ]; apply Z.eqb_eq, Z.div_small; exact H. }
  split; auto. intros Av Nf Rt. destruct (reached_past _ _ _ _ _ _ _ _ R) as (pts & -> & Pa). destruct R as ((Hr' & Hn & Hk & Kc & B & Pl) & _).
  destruct (SubsenseRun.apply_ok c rnd size Hr' Hn Hk Kc ov ratio pts f st _ Bf Hr (Zle_0_nat _) (SubsenseRun.a_sane _ _ _ _ _ _ _ Pa)) as [(_ & X)|[(_ & X)|[(_ & _ & X)|[(X & _)|(m' & s' & X & _)]]]].
  - lia.
  - lia.
  - lra.
  - exact X.
  - now apply N in X.
Qed.
Print Assumptions C75_thin_images.

(* the default parameters, but for the number of samples *)
Definition example (k : Z) (n : nat) (big : bool) : config :=
  {| ch := k; colour := 30; desc := 3; needed := 2; count := n; avgs := 100; large := big; spread3 := big; rel := 333 # 1000; offset := 0;
     filtered := fun m i => existsb (fun ib => (fst ib =? i) && snd ib) m; grown := fun m i => existsb (fun ib => (fst ib =? i) && snd ib) m |}.
Definition blank_state (c : config) (img : Z -> Z) : state :=
  {| mem := {| col := fun _ _ => 0; dsc := fun _ _ => 0; seen := img; fgmask := fun _ => false; used := 0%nat |}; ldesc := fun _ => 0; px := fun _ => Subsense.start (loop c); moved := fun _ => 0%Q;
     glob := Subsense.start_global (loop c); lut := first_lut c; nz := 0%Q |}.
Definition done {A} (o : outcome A) : bool := match o with Done _ => true | _ => false end.
Definition started (c : config) (rnd : nat -> Z) (given : option mask) (size : Z * Z) (img : Z -> Z) : list Z * state :=
  match initialize c rnd None given size img with Done r => r | _ => ([], blank_state c img) end.
Lemma started_done c rnd given size img : done (initialize c rnd None given size img) = true -> initialize c rnd None given size img = Done (fst (started c rnd given size img), snd (started c rnd given size img)).
Proof. unfold started. destruct (initialize c rnd None given size img) as [[]| | |]; [ reflexivity | discriminate | discriminate | discriminate ]. Qed.
Definition shown (o : outcome (list (Z * bool) * state)) : list (Z * bool) := match o with Done r => fst r | _ => [] end.
Definition after (st : state) (o : outcome (list (Z * bool) * state)) : state := match o with Done r => snd r | _ => st end.
Lemma applied st o : done o = true -> o = Done (shown o, after st o).
Proof. destruct o as [[]| | |]; [ reflexivity | discriminate | discriminate | discriminate ]. Qed.
Lemma example_usable k n big v img l : k = 1 \/ k = 3 -> (0 < n)%nat -> 0 <= v -> byte_image img -> proper l -> usable (example k n big) (fun _ => v) img l.
Proof. intros Hk Hn Hv B P. split; [ intros; exact Hv | ]. split; [ exact Hn | ]. split; [ exact Hk | ]. split; [ | split; auto ]. repeat split; cbn; lia. Qed.
Lemma reached_started k n big v given size img : k = 1 \/ k = 3 -> (0 < n)%nat -> 0 <= v -> byte_image img -> let c := example k n big in
  done (initialize c (fun _ => v) None given size img) = true -> let r := started c (fun _ => v) given size img in reached c (fun _ => v) size img (fst r) (snd r) [] (snd r).
Proof. intros Hk Hn Hv B c D r. split; [ apply example_usable; auto; constructor | ]. split; [ exists None, given; apply started_done; exact D | reflexivity ]. Qed.

(* A still scene can be foreground in its own first image: a sample taken in the first row or column that is looked at has no texture. *)
Theorem C75_still_refuted : exists c rnd size img pxs st0 p m st', reached c rnd size img pxs st0 [] st0 /\ (needed c <= count c)%nat /\
  apply c rnd 0 0 size pxs img st0 = Done (m, st') /\ inner size p /\ (forall q, inner size q -> In (place size q) pxs) /\ In (place size p, true) m.
Proof.
  set (img := fun i => if i =? 12 then 100 else 200). set (c := example 1 3 false). set (r := started c (fun _ => 0) None (5, 5) img). set (o := apply c (fun _ => 0) 0 0 (5, 5) (fst r) img (snd r)).
  exists c, (fun _ => 0), (5, 5), img, (fst r), (snd r), (2, 2), (shown o), (after (snd r) o).
  split; [ apply reached_started; [ auto | lia | lia | intros i; unfold img; destruct (i =? 12); lia | vm_compute; reflexivity ] | ]. split; [ cbn; lia | ].
  split; [ apply applied; vm_compute; reflexivity | ]. split; [ split; cbn; lia | ]. split.
  - intros [x y] [H1 H2]. cbn [fst snd] in *. replace x with 2 by lia. replace y with 2 by lia. vm_compute. tauto.
  - vm_compute. tauto.
Qed.
Print Assumptions C75_still_refuted.

(* In a scene of one colour the pixel given as region of interest is foreground at once: its samples are black, taken from outside of the region. *)
Theorem C75_static_region_refuted : exists c rnd size img tint given pxs st0 p m st', reached c rnd size img pxs st0 [] st0 /\ initialize c rnd None (Some given) size img = Done (pxs, st0) /\ (needed c <= count c)%nat /\
  uniform (ch c) size tint img /\ apply c rnd 0 0 size pxs img st0 = Done (m, st') /\ inner size p /\ RoiTable.px given (snd p) (fst p) = 255 /\ In (place size p, true) m.
Proof.
  set (c := example 1 3 false). set (g := Mask 13 13 (fun y x => if (y =? 6) && (x =? 6) then 255 else 0)). set (r := started c (fun _ => 0) (Some g) (13, 13) (fun _ => 100)).
  set (o := apply c (fun _ => 0) 0 0 (13, 13) (fst r) (fun _ => 100) (snd r)).
  exists c, (fun _ => 0), (13, 13), (fun _ => 100), (fun _ => 100), g, (fst r), (snd r), (6, 6), (shown o), (after (snd r) o).
  split; [ apply reached_started; [ auto | lia | lia | intros i; lia | vm_compute; reflexivity ] | ]. split; [ apply started_done; vm_compute; reflexivity | ]. split; [ cbn; lia | ].
  split; [ intros q x _ _; reflexivity | ]. split; [ apply applied; vm_compute; reflexivity | ]. split; [ split; cbn; lia | ]. split; [ reflexivity | ]. vm_compute. tauto.
Qed.
Print Assumptions C75_static_region_refuted.

(* A still scene that was background can become foreground in the next frame: the thresholds of textures change, the textures of the samples are not computed again. *)
Theorem C75_still_later_refuted : exists c rnd size img pxs st0 p m st1 m' st2, reached c rnd size img pxs st0 [Frame img 0 0] st1 /\ (needed c <= count c)%nat /\
  apply c rnd 0 0 size pxs img st0 = Done (m, st1) /\ apply c rnd 0 0 size pxs img st1 = Done (m', st2) /\ inner size p /\ (forall q, inner size q -> In (place size q) pxs) /\
  (forall i b, In (i, b) m -> b = false) /\ In (place size p, true) m'.
Proof.
  set (img := fun i => if i =? 32 then 100 else 111). assert (Bi : byte_image img) by (intros i; unfold img; destruct (i =? 32); lia).
  set (c := example 1 3 false). set (r := started c (fun _ => 255) None (7, 7) img). set (o := apply c (fun _ => 255) 0 0 (7, 7) (fst r) img (snd r)).
  assert (Eo : o = Done (shown o, after (snd r) o)) by (apply applied; vm_compute; reflexivity). set (st1 := after (snd r) o) in *. set (o' := apply c (fun _ => 255) 0 0 (7, 7) (fst r) img st1).
  exists c, (fun _ => 255), (7, 7), img, (fst r), (snd r), (4, 4), (shown o), st1, (shown o'), (after st1 o'). split.
  { split; [ apply example_usable; [ auto | lia | lia | exact Bi | constructor; [ split; [ exact Bi | lra ] | constructor ] ] | ]. split; [ exists None, None; apply started_done; vm_compute; reflexivity | ].
    cbn [play act]. fold o. rewrite Eo. reflexivity. }
  split; [ cbn; lia | ]. split; [ exact Eo | ]. split; [ apply applied; vm_compute; reflexivity | ]. split; [ split; cbn; lia | ]. split; [ | split ].
  - intros [x y] [H1 H2]. cbn [fst snd] in *. assert (E : forallb (fun yx => existsb (Z.eqb (place (7, 7) (snd yx, fst yx))) (fst r)) (grid 2 3 2 3) = true) by (vm_compute; reflexivity).
    rewrite forallb_forall in E. specialize (E (y, x) ltac:(apply in_grid; cbn [fst snd]; lia)). apply existsb_exists in E. destruct E as (i & I & X). apply Z.eqb_eq in X. cbn [fst snd] in X. rewrite X. exact I.
  - intros i b I. assert (E : forallb (fun ib => negb (snd ib)) (shown o) = true) by (vm_compute; reflexivity). rewrite forallb_forall in E. specialize (E _ I). cbn in E. destruct b; [ discriminate E | reflexivity ].
  - vm_compute. tauto.
Qed.
Print Assumptions C75_still_later_refuted.

(* With an infinite learning rate, asked for to stop learning, the model still learns when rand() gives 0. *)
Theorem C75_infinite_rate_refuted : exists c rnd size img f pxs st0 m st' s p, reached c rnd size img pxs st0 [] st0 /\ byte_image f /\
  apply c rnd (2 ^ 64 - 1) 0 size pxs f st0 = Done (m, st') /\ (s < count c)%nat /\ In (place size p) pxs /\ colours c size st' s p 0 <> colours c size st0 s p 0.
Proof.
  set (c := example 1 3 false). set (r := started c (fun _ => 0) None (7, 7) (fun _ => 100)). set (o := apply c (fun _ => 0) (2 ^ 64 - 1) 0 (7, 7) (fst r) (fun _ => 105) (snd r)).
  exists c, (fun _ => 0), (7, 7), (fun _ => 100), (fun _ => 105), (fst r), (snd r), (shown o), (after (snd r) o), 0%nat, (3, 3).
  split; [ apply reached_started; [ auto | lia | lia | intros i; lia | vm_compute; reflexivity ] | ]. split; [ intros i; lia | ]. split; [ apply applied; vm_compute; reflexivity | ].
  split; [ cbn; lia | ]. split; [ vm_compute; tauto | ]. vm_compute. discriminate.
Qed.
Print Assumptions C75_infinite_rate_refuted.

(* a scene of one colour, in grey and in colour, with a step in the middle of the frame: it is foreground there and nowhere else; with the image said to be large it cannot be finished *)
Example C75_ex : forall k, k = 1 \/ k = 3 -> let c := example k 3 false in let r := started c (fun n => Z.of_nat n * 37) None (9, 9) (fun _ => 100) in
  let f i := if i / k =? 40 then 160 else 100 in let m := shown (apply c (fun n => Z.of_nat n * 37) 0 0 (9, 9) (fst r) f (snd r)) in
  length m = 25%nat /\ filter snd m = [(40, true)] /\ done (apply (example k 3 true) (fun n => Z.of_nat n * 37) 0 0 (7, 9) [] f (snd r)) = false.
Proof. intros k [ -> | -> ]; vm_compute; repeat split. Qed.
(* a frame with a learning rate of 5 and random numbers of 1 is processed, and meets the hypotheses of C75_override *)
Example C75_ex_override : let c := example 1 3 false in let r := started c (fun _ => 1) None (7, 7) (fun _ => 100) in let o := apply c (fun _ => 1) 5 0 (7, 7) (fst r) (fun _ => 105) (snd r) in
  done o = true /\ (1 mod 5, 1 mod (5 / 2 + 1), 1 mod Qfloor (Subsense.low_cap (glob (snd r)))) = (1, 1, 1) /\ Subsense.cooldown (glob (snd r)) = 0 /\ filter snd (shown o) = [].
Proof. vm_compute. repeat split. Qed.
