From Coq Require Import ZArith NArith QArith Qround List Bool Lia Lqa.
From Verif Require Import Lib.Grid Model.Bits Model.Distances Model.Sampling Model.Lbsp Model.RoiTable Model.Pbas Spec.Lbsp Proofs.Lbsp Spec.RoiTable Proofs.RoiTable.
From Verif Require Spec.Subsense Proofs.Subsense.
From Verif Require Import Proofs.Lobster.
From Verif Require Proofs.LobsterRun.
From Verif Require Import Spec.Vibe Model.Lobster Spec.Lobster.
From Verif Require Import Model.SubsenseFrame Spec.SubsenseFrame Proofs.SubsensePixel Proofs.SubsenseFrame.
Import ListNotations.
Open Scope Z_scope.

(* ------------------------------------------------------------------ the thresholds *)
Lemma sat_range v : 0 <= sat_uchar v <= 255.
Proof. unfold sat_uchar. destruct (Z.ltb_spec v 0); [ lia | ]. destruct (Z.ltb_spec 255 v); lia. Qed.
Lemma sat_mono a b : a <= b -> sat_uchar a <= sat_uchar b.
Proof. intros H. unfold sat_uchar. destruct (Z.ltb_spec a 0), (Z.ltb_spec b 0), (Z.ltb_spec 255 a), (Z.ltb_spec 255 b); lia. Qed.
Lemma wrap8_id z : 0 <= z <= 255 -> wrap8 z = z.
Proof. intros H. apply Z.mod_small. lia. Qed.
Lemma table_byte c l t : table c l -> 0 <= t <= 255 -> 0 <= l t <= 255.
Proof. intros H Ht. specialize (H t Ht). pose proof (sat_range (half_even (if ch c =? 1 then (inject_Z t * rel c + inject_Z (offset c)) / 3 else inject_Z t * rel c + inject_Z (offset c))%Q)) as A. fold (first_lut c t) in A.
  pose proof (sat_range (offset c + Qceiling (inject_Z t * rel c / 4))) as B. fold (least c t) in B. pose proof (sat_range (half_even (inject_Z (offset c) + 255 * rel c)%Q)) as D. fold (most c) in D. lia. Qed.
Lemma table_first c : table c (first_lut c).
Proof. intros t Ht. lia. Qed.
(* an adaptation moves no threshold by more than one, and not beyond the limits *)
Lemma adapt_entry c now before l t : table c l -> 0 <= t <= 255 ->
  adapt c now before l t = l t \/ (adapt c now before l t = l t - 1 /\ least c t <= l t - 1) \/ (adapt c now before l t = l t + 1 /\ l t + 1 <= most c).
Proof.
  intros H Ht. pose proof (table_byte c l t H Ht) as R. unfold adapt. pose proof (sat_range (offset c + Qceiling (inject_Z t * rel c / 4))) as B. fold (least c t) in B. pose proof (sat_range (half_even (inject_Z (offset c) + 255 * rel c)%Q)) as D. fold (most c) in D.
  destruct (_ && _).
  - destruct (Z.ltb_spec (least c t) (l t)); auto. rewrite wrap8_id by lia. right. left. lia.
  - destruct (_ && _); auto. destruct (Z.ltb_spec (l t) (most c)); auto. rewrite wrap8_id by lia. right. right. lia.
Qed.
Lemma table_adapt c now before l : table c l -> table c (adapt c now before l).
Proof. intros H t Ht. pose proof (H t Ht). destruct (adapt_entry c now before l t H Ht) as [->|[(-> & A)|(-> & A)]]; lia. Qed.

Lemma least_mono c t t' : (0 <= rel c)%Q -> t <= t' -> least c t <= least c t'.
Proof.
  intros R H. unfold least. apply sat_mono. apply Z.add_le_mono_l. apply Qceiling_resp_le. unfold Qdiv. change (/ 4)%Q with (1 # 4)%Q. assert (E : (inject_Z t <= inject_Z t')%Q) by now rewrite <- Zle_Qle. nra.
Qed.
Lemma first_mono c t t' : (0 <= rel c)%Q -> t <= t' -> first_lut c t <= first_lut c t'.
Proof.
  intros R H. unfold first_lut. apply sat_mono. apply half_even_mono. assert (E : (inject_Z t <= inject_Z t')%Q) by now rewrite <- Zle_Qle.
  destruct (ch c =? 1); [ unfold Qdiv; change (/ 3)%Q with (1 # 3)%Q; nra | nra ].
Qed.
Definition monotone (l : Z -> Z) : Prop := forall t t', 0 <= t -> t <= t' -> t' <= 255 -> l t <= l t'.
Lemma adapt_monotone c now before l : (0 <= rel c)%Q -> table c l -> monotone l -> monotone (adapt c now before l).
Proof.
  intros R T M t t' H1 H2 H3. specialize (M t t' H1 H2 H3). pose proof (table_byte c l t T ltac:(lia)) as B1. pose proof (table_byte c l t' T ltac:(lia)) as B2.
  pose proof (least_mono c t t' R H2) as L. pose proof (sat_range (half_even (inject_Z (offset c) + 255 * rel c)%Q)) as D. fold (most c) in D.
  pose proof (sat_range (offset c + Qceiling (inject_Z t * rel c / 4))) as B. fold (least c t) in B.
  unfold adapt. destruct (_ && _).
  - destruct (Z.ltb_spec (least c t) (l t)), (Z.ltb_spec (least c t') (l t')); rewrite ?wrap8_id by lia; lia.
  - destruct (_ && _); auto. destruct (Z.ltb_spec (l t) (most c)), (Z.ltb_spec (l t') (most c)); rewrite ?wrap8_id by lia; lia.
Qed.

Section Run.
  Context (c : config) (rnd : nat -> Z) (size : Z * Z) (Hrnd : forall k, 0 <= rnd k) (Hn : (0 < count c)%nat) (Hk : ch c = 1 \/ ch c = 3).
  Context (Kc : Spec.Subsense.config_ok (loop c)).
  Notation k := (ch c).
  Notation colour_at := (colour_at (shape c) size). Notation texture_at := (texture_at (shape c) size). Notation same := (same (shape c) size).
  Notation taken := (taken k). Notation fed := (fed c size). Notation gaps_of := (gaps_of c size). Notation colour_seen := (colour_seen c size). Notation texture_seen := (texture_seen c size).
  Notation updated := (updated c size). Notation framed := (framed c size). Notation fit := (fit size). Notation drawn := (drawn c size). Notation refreshed := (refreshed c size).
  Notation inv := Proofs.Subsense.inv.

  Definition bump (st : state) : state :=
    {| mem := mem st; ldesc := ldesc st; px := px st; moved := moved st;
       glob := {| Subsense.frame_no := Subsense.frame_no (glob st) + 1; Subsense.low_cap := Subsense.low_cap (glob st); Subsense.up_cap := Subsense.up_cap (glob st); Subsense.auto_reset := Subsense.auto_reset (glob st);
               Subsense.since_reset := Subsense.since_reset (glob st); Subsense.cooldown := Subsense.cooldown (glob st) |};
       lut := lut st; nz := nz st |}.
  Definition input_of (ratio : Q) (m : list (Z * bool)) (smp : list Subsense.sample) (i : Z) : Subsense.input :=
    {| Subsense.samples := smp; Subsense.final := filtered c m i; Subsense.dilated := grown c m i; Subsense.diff_ratio := ratio |}.

  (* what a whole frame does *)
  Record processed (img : Z -> Z) (ratio : Q) (pts : list (Z * Z)) (st : state) (m : list (Z * bool)) (st' : state) : Prop := {
    d_good : good st';
    d_pts : map fst m = map (place size) pts;
    d_step : forall pre p post, pts = pre ++ p :: post -> exists m1 fg m2 mid, m = m1 ++ (place size p, fg) :: m2 /\ map fst m1 = map (place size) pre /\ good mid /\
      (forall s p', in_image size p' -> same (mem st) (mem mid) s p' \/ updated img (fun i => Subsense.unstable (px st' i)) m1 st (mem mid) s p') /\
      Subsense.step (loop c) (input_of ratio m (map (gaps_of (lut st) img p (mem mid)) (seq 0 (count c))) (place size p)) (px st (place size p), glob st)
        = Subsense.Done (fg, (px st' (place size p), glob st'));
    d_glob : exists reset, Subsense.global_step (loop c) ratio (glob (bump st)) = Subsense.Done (reset, glob st');
    d_fed : forall s p, in_image size p -> same (mem st) (mem st') s p \/ updated img (fun i => Subsense.unstable (px st' i)) m st (mem st') s p \/
      (large c = true /\ (s < count c)%nat /\ In p pts /\ filtered c m (place size p) = false /\ drawn false (filtered c m) (seen (mem st')) (ldesc st') (mem st') s p);
    d_here : forall p, In p pts -> taken (lut st) size img p (colour_seen st' p) (texture_seen st' p);
    d_there : forall p x, in_image size p -> ~ In p pts -> 0 <= x < k -> colour_seen st' p x = colour_seen st p x /\ texture_seen st' p x = texture_seen st p x;
    d_mask : fgmask (mem st') = filtered c m;
    d_lut : lut st' = adapt c (nz st') (nz st) (lut st);
    d_kept : (forall i b, In (i, b) m -> b = true) -> Subsense.cooldown (glob st) = 0 -> large c = false ->
      col (mem st') = col (mem st) /\ dsc (mem st') = dsc (mem st) /\ used (mem st') = used (mem st) }.

  Record sane (n : Z) (pts : list (Z * Z)) (st : state) : Prop := {
    n_good : good st;
    n_pts : Forall (inner size) pts /\ NoDup pts;
    n_glob : Subsense.frame_no (glob st) = n /\ (1 <= Subsense.low_cap (glob st) /\ Subsense.low_cap (glob st) <= Subsense.up_cap (glob st) /\ Subsense.up_cap (glob st) <= 512)%Q;
    n_inv : forall p, In p pts -> inv n (px st (place size p)) (glob st) }.
  Lemma sane_fit n pts st : sane n pts st -> fit (bump st) pts.
  Proof. intros [A1 (A2 & A3) (A4 & A5) A6]. split; auto. split; auto. split; [ apply A5 | ]. intros p I. destruct (Proofs.Subsense.i_rate _ _ _ (A6 p I)) as [X _]. exact X. Qed.
  Lemma good_bump st : good st -> good (bump st).
  Proof. intros [A B]. split; auto. Qed.

  Lemma apply_ok ov ratio pts img st n : byte_image img -> (0 <= ratio)%Q -> 0 <= n -> sane n pts st ->
    let r := apply c rnd ov ratio size (map (place size) pts) img st in
    (r = Fault (Loop Subsense.NoFrame) /\ avgs c < 4) \/ (r = Fault (Loop Subsense.Shift64) /\ 5441 <= n) \/ (r = Fault (Loop Subsense.Shift32) /\ large c = true /\ (64 <= ratio)%Q) \/
    (r = Thrown /\ large c = true /\ (fst size / 8 = 0 \/ snd size / 8 = 0)) \/
    exists m st', r = Done (m, st') /\ processed img ratio pts st m st'.
  Proof.
    intros B Hr N Sa. pose proof (sane_fit _ _ _ Sa) as Fi. destruct Sa as [A1 (A2 & A2') (A3 & A3') A4]. unfold apply.
    destruct Kc as (K1 & K2 & K3). cbn [loop Subsense.window Subsense.min_color Subsense.desc_offset] in K1, K2, K3.
    assert (NF : avgs c < 4 \/ (exists al as_, Subsense.factor (Subsense.frame_no (glob st) + 1) (avgs c) = Some al /\ Subsense.factor (Subsense.frame_no (glob st) + 1) (avgs c / 4) = Some as_)).
    { destruct (Z.lt_ge_cases (avgs c) 4) as [L|L]; [ left; auto | right ]. assert (1 <= avgs c / 4) by (apply Z.div_le_lower_bound; lia).
      destruct (Proofs.Subsense.factor_some (Subsense.frame_no (glob st) + 1) (avgs c)) as (al & ->); [ lia | lia | ].
      destruct (Proofs.Subsense.factor_some (Subsense.frame_no (glob st) + 1) (avgs c / 4)) as (as_ & ->); [ lia | lia | ]. eauto. }
    destruct (Subsense.factor (Subsense.frame_no (glob st) + 1) (avgs c)) as [al|] eqn:Fa.
    2: { left. split; auto. destruct NF as [L|(? & ? & X & _)]; [ auto | discriminate ]. }
    destruct (Subsense.factor (Subsense.frame_no (glob st) + 1) (avgs c / 4)) as [as_|] eqn:Fs.
    2: { left. split; auto. destruct NF as [L|(? & ? & _ & X)]; [ auto | discriminate ]. }
    clear NF. right. fold (bump st). change {| mem := mem st; ldesc := ldesc st; px := px st; moved := moved st; glob := glob (bump st); lut := lut st; nz := nz st |} with (bump st).
    destruct (apply_pixels_ok c rnd size Hrnd Hn Hk ov img al as_ B pts (bump st) (good_bump _ A1) Fi) as [(p & I & Sh & E)|(mb & s & E & F)].
    { left. rewrite E. cbn [obind]. split; auto. eapply Proofs.Subsense.shift_fault; eauto. }
    right. rewrite E. cbn [obind fst snd].
    destruct (large c && ((fst size / 8 =? 0) || (snd size / 8 =? 0))) eqn:Th.
    { right. left. split; auto. apply andb_true_iff in Th. destruct Th as [T1 T2]. split; auto. apply orb_true_iff in T2. rewrite !Z.eqb_eq in T2. auto. }
    destruct (Subsense.global_step (loop c) ratio _) as [[reset g2]|f] eqn:G.
    2: { left. cbn [feedback obind]. apply Proofs.Subsense.global_step_fault in G; auto. destruct G as (-> & G1 & G2). auto. }
    right. right. cbn [feedback obind fst snd].
    pose proof F as [F1 F2 F3 F4 F5 F6 (F7 & F8 & F9 & F10) F11]. set (m := raw mb) in *.
    set (m1 := {| col := col (mem s); dsc := dsc (mem s); seen := seen (mem s); fgmask := filtered c m; used := used (mem s) |}).
    assert (S1 : sound m1). { destruct (g_sound _ F1) as [X1 X2 X3]. split; auto. }
    assert (RF : exists m2, (if reset then refreshModel c rnd size (ldesc s) (1 # 10) false (map (place size) pts) m1 else Done m1) = Done m2 /\ sound m2 /\ seen m2 = seen (mem s) /\ fgmask m2 = filtered c m /\
       (forall s0 p, in_image size p -> same m1 m2 s0 p \/ (large c = true /\ (s0 < count c)%nat /\ In p pts /\ filtered c m (place size p) = false /\ drawn false (filtered c m) (seen m1) (ldesc s) m2 s0 p)) /\ (large c = false -> m2 = m1)).
    { destruct reset.
      - assert (La : large c = true). { unfold Subsense.global_step in G. change (Subsense.scaling (loop c)) with (large c) in G. destruct (large c); [ reflexivity | discriminate ]. }
        destruct (refreshModel_ok c rnd size Hrnd Hn Hk (ldesc s) (1 # 10) false pts m1 (g_ldesc _ F1) S1 A2) as [(X & _)|(_ & m2 & -> & X1 & X2 & X3 & start & X4 & _)]; [ exfalso; apply X; split; lra | ].
        exists m2. do 4 (split; auto). split; [ | congruence ]. intros s0 p Hp. destruct (X4 s0 p Hp) as [Y|(Y1 & Y2 & Y3 & Y4)]; [ left; exact Y | right ]. split; auto. split; [ eapply window_lt; eauto | ]. split; auto.
        split; [ | exact Y4 ]. destruct Y2 as [Y2|Y2]; [ discriminate | exact Y2 ].
      - exists m1. do 4 (split; auto). split; auto. intros. left. apply same_refl. }
    destruct RF as (m2 & -> & R1 & R2 & R3 & R4 & R5). cbn [obind fst snd].
    assert (Un : forall (i : Z) (fin dil : Z -> bool) (p0 p1 : Z -> Subsense.pixel), Subsense.unstable ((if reset then fun i => with_rate 1 (close_pixel al as_ (fin i) (dil i) (p0 i) (p1 i)) else fun i => close_pixel al as_ (fin i) (dil i) (p0 i) (p1 i)) i) = Subsense.unstable (p1 i)).
    { intros. destruct reset; reflexivity. }
    eexists m, _. split; [ reflexivity | ]. split; cbn [mem ldesc px glob lut nz].
    - split; cbn [mem ldesc]; [ auto | apply F1 ].
    - exact F2.
    - intros pre p post Ep. subst pts. destruct (pixel_decision c rnd size Hrnd Hn Hk ov img al as_ pre p post (bump st) mb s B (good_bump _ A1) Fi E) as (ma & mid & fg & mc & D1 & D2 & D3 & D5 & D4).
      exists (raw ma), fg, mc, mid. split; [ exact D3 | ]. split; [ apply D2 | ]. split; [ apply D2 | ]. split.
      { intros s0 p' Hp'. destruct (f_fed _ _ _ _ _ _ _ D2 s0 p' Hp') as [Y|Y]; [ left; exact Y | right ]. eapply updated_more; [ | | | exact Y ]; [ | reflexivity | reflexivity ].
        intros q b I. split; auto. cbv beta. rewrite Un. rewrite D5; auto. rewrite <- (f_pts _ _ _ _ _ _ _ D2). apply in_map_iff. exists (place size q, b). auto. }
      unfold Subsense.step. cbn [loop Subsense.window]. rewrite Fa, Fs. unfold input_of.
      pose proof (close_step (loop c) _ al as_ _ (filtered c m (place size p)) (grown c m (place size p)) ratio _ _ _ D4) as D6. cbn [bump glob lut px] in D6. rewrite D6. cbn [Subsense.diff_ratio].
      rewrite G. destruct reset; reflexivity.
    - exists reset. exact G.
    - intros s0 p Hp. destruct (R4 s0 p Hp) as [Y|(Y1 & Y1' & Y2 & Y3 & Y4)].
      + destruct (F4 s0 p Hp) as [Z|Z]; [ left; eapply same_trans; [ exact Z | exact Y ] | right; left ]. eapply updated_same; [ exact Y | ]. eapply updated_more; [ | | | exact Z ]; [ | reflexivity | reflexivity ].
        intros q b I. split; [ auto | apply Un ].
      + right. right. rewrite R2. auto.
    - intros p I. eapply taken_ext; [ | apply F5; exact I ]. intros x Hx. unfold SubsensePixel.colour_seen, SubsensePixel.texture_seen. cbn [mem ldesc]. rewrite R2. auto.
    - intros p x Hp I Hx. destruct (F6 p x Hp I Hx) as [Y1 Y2]. unfold SubsensePixel.colour_seen, SubsensePixel.texture_seen in *. cbn [mem ldesc] in *. rewrite R2. auto.
    - exact R3.
    - rewrite F8, F9. reflexivity.
    - intros H C0 La. rewrite (R5 La). cbn [col dsc used m1]. apply F11; auto.
  Qed.

  (* ------------------------------------------------------------------ histories *)
  Lemma processed_sane img ratio pts n st m st' : byte_image img -> (0 <= ratio)%Q -> 0 <= n -> sane n pts st -> processed img ratio pts st m st' -> sane (n + 1) pts st'.
  Proof.
    intros B Hr N [A1 A2 (A3 & A3') A4] [D1 D2 D3 (reset & D4) D5 D6 D7 D8 D9 D10]. split; auto.
    - apply Proofs.Subsense.global_step_inv in D4; auto. cbn [bump glob Subsense.frame_no] in D4. destruct D4 as (X & Y). split; [ lia | exact Y ].
    - intros p I. apply in_split in I. destruct I as (pre & post & Ep). destruct (D3 pre p post Ep) as (m1 & fg & m2 & mid & _ & _ & Gm & _ & St).
      eapply Proofs.Subsense.step_inv; [ exact Kc | | exact N | apply A4 | exact St ]; [ | subst pts; apply in_or_app; right; now left ].
      split; [ | exact Hr ]. cbn [input_of Subsense.samples]. apply Forall_map, Forall_forall. intros s0 _. apply (gaps_range c rnd); auto. apply Gm.
  Qed.

  Notation kept := (kept c size).
  Definition stems (pts : list (Z * Z)) (first : Z -> Z) (P : (Z -> Z) -> Prop) (m : Lobster.state) (s : nat) (p : Z * Z) : Prop :=
    exists q, inner size q /\ within 3 p q /\ kept (map (place size) pts) first P q (colour_at m s p) (texture_at m s p).
  Record past (first : Z -> Z) (P : (Z -> Z) -> Prop) (n : Z) (pts : list (Z * Z)) (st : state) : Prop := {
    a_sane : sane n pts st;
    a_table : table c (lut st);
    a_cells : forall q, inner size q -> kept (map (place size) pts) first P q (colour_seen st q) (texture_seen st q);
    a_stems : forall s p, (s < count c)%nat -> In p pts -> stems pts first P (mem st) s p }.

  Lemma kept_ext pxs first P q b d b' d' : (forall x, 0 <= x < k -> b' x = b x /\ d' x = d x) -> kept pxs first P q b d -> kept pxs first P q b' d'.
  Proof.
    intros H [(I & im & l & A1 & A2 & A3)|[(I & A)|(I & A & A')]].
    - left. split; auto. exists im, l. do 2 (split; auto). eapply taken_ext; eauto.
    - right. left. split; auto. intros x Hx. destruct (H x Hx) as [-> ->]. auto.
    - right. right. split; auto. split; auto. intros x Hx. destruct (H x Hx) as [-> ->]. auto.
  Qed.
  Lemma stems_same pts first P m m' s p : same m m' s p -> stems pts first P m s p -> stems pts first P m' s p.
  Proof. intros S (q & A1 & A2 & A3). exists q. do 2 (split; auto). eapply kept_ext; eauto. Qed.
  Lemma updated_stems pts first (P : (Z -> Z) -> Prop) img u m st mm s p : P img -> table c (lut st) -> (forall i b, In (i, b) m -> In i (map (place size) pts)) -> updated img u m st mm s p -> stems pts first P mm s p.
  Proof.
    intros Hi T M (_ & Hp & q & b & Hq & I & _ & W & Tk). exists q. split; auto. split; [ unfold within in *; destruct (_ && _); lia | ].
    left. split; [ eapply M; eauto | ]. exists img, (lut st). auto.
  Qed.
  Lemma drawn_stems pts first P force mask st mm s p : (forall q, inner size q -> kept (map (place size) pts) first P q (colour_seen st q) (texture_seen st q)) ->
    drawn force mask (seen (mem st)) (ldesc st) mm s p -> stems pts first P mm s p.
  Proof. intros H (q & Hq & W & _ & E). exists q. split; auto. split; auto. eapply kept_ext; [ | apply H; auto ]. exact E. Qed.

  Lemma processed_past first (P : (Z -> Z) -> Prop) img ratio pts n st m st' : byte_image img -> (0 <= ratio)%Q -> 0 <= n -> P img -> past first P n pts st -> processed img ratio pts st m st' -> past first P (n + 1) pts st'.
  Proof.
    intros B Hr N Hi [A1 A2 A3 A4] D. pose proof (processed_sane img ratio pts n st m st' B Hr N A1 D) as Sa. destruct D as [D1 D2 D3 D4 D5 D6 D7 D8 D9 D10].
    assert (M : forall i b, In (i, b) m -> In i (map (place size) pts)) by (intros i b I; rewrite <- D2; apply in_map_iff; exists (i, b); auto).
    assert (Cells : forall q, inner size q -> kept (map (place size) pts) first P q (colour_seen st' q) (texture_seen st' q)).
    { intros q Hq. destruct (in_dec Z.eq_dec (place size q) (map (place size) pts)) as [I|I].
      - left. split; auto. exists img, (lut st). do 2 (split; auto). apply D6. exact (in_places size q pts (inner_image _ _ Hq) (proj1 (n_pts _ _ _ A1)) I).
      - eapply kept_ext; [ | apply A3; auto ]. intros x Hx. apply D7; auto using inner_image. intros X. apply I, in_map. auto. }
    split; auto.
    - rewrite D9. apply table_adapt. auto.
    - intros s p Hs I. assert (Hp : in_image size p) by (apply inner_image; destruct (n_pts _ _ _ A1) as [F _]; rewrite Forall_forall in F; auto).
      destruct (D5 s p Hp) as [X|[X|(_ & _ & _ & _ & X)]]; [ eapply stems_same; eauto | eapply updated_stems; eauto | eapply drawn_stems; eauto ].
  Qed.

  Definition broken (n : Z) (l : list event) (f : Subsense.fault) : Prop :=
    (f = Subsense.NoFrame /\ avgs c < 4) \/ (f = Subsense.Shift32 /\ large c = true /\ Exists (fun e => match e with Frame _ _ ratio => (64 <= ratio)%Q | Refresh _ _ => False end) l) \/
    (f = Subsense.Shift64 /\ 5441 < n + Z.of_nat (length (frames l))).

  Lemma play_ok first (P : (Z -> Z) -> Prop) pts : forall l n st, 0 <= n -> past first P n pts st -> proper l -> (forall im, In im (frames l) -> P im) ->
    (exists f, play c rnd size (map (place size) pts) l st = Fault (Loop f) /\ broken n l f) \/
    (play c rnd size (map (place size) pts) l st = Thrown /\ large c = true /\ (fst size / 8 = 0 \/ snd size / 8 = 0)) \/
    exists st', play c rnd size (map (place size) pts) l st = Done st' /\ past first P (n + Z.of_nat (length (frames l))) pts st'.
  Proof.
    induction l as [|e l IH]; intros n st N Pa Pr F; cbn [play].
    - right. right. exists st. rewrite Z.add_0_r. auto.
    - inversion Pr as [|? ? Pe Pl]; subst. destruct e as [img ov ratio|frac force]; cbn [act].
      + destruct Pe as [B Hr]. assert (Fl : forall im, In im (frames l) -> P im) by (intros im I; apply F; right; exact I).
        change (length (frames (Frame img ov ratio :: l))) with (S (length (frames l))).
        destruct (apply_ok ov ratio pts img st n B Hr N (a_sane _ _ _ _ _ Pa)) as [(-> & X)|[(-> & X)|[(-> & X1 & X2)|[(-> & X)|(m & st' & -> & X)]]]]; cbn [obind].
        * left. exists Subsense.NoFrame. split; auto. left. auto.
        * left. exists Subsense.Shift64. split; auto. right. right. split; auto. change (length (frames (Frame img ov ratio :: l))) with (S (length (frames l))). lia.
        * left. exists Subsense.Shift32. split; auto. right. left. split; auto.
        * auto.
        * pose proof (processed_past first P img ratio pts n st m st' B Hr N (F img (or_introl eq_refl)) Pa X) as Pa'. cbn [snd].
          destruct (IH (n + 1) st' ltac:(lia) Pa' Pl Fl) as [(f & -> & [Y|[(Y1 & Y2 & Y3)|(Y1 & Y2)]])|[Y|(st2 & -> & Y)]].
          -- left. exists f. split; auto. left. auto.
          -- left. exists f. split; auto. right. left. auto.
          -- left. exists f. split; auto. right. right. split; auto. change (length (frames (Frame img ov ratio :: l))) with (S (length (frames l))). lia.
          -- auto.
          -- right. right. exists st2. split; auto. replace (n + Z.of_nat (S (length (frames l)))) with (n + 1 + Z.of_nat (length (frames l))) by lia. auto.
      + assert (Step : exists st', (act c rnd size (map (place size) pts) (Refresh frac force) st = Refused /\ st' = st \/ act c rnd size (map (place size) pts) (Refresh frac force) st = Done st') /\ past first P n pts st').
        { cbn [act]. destruct Pa as [A1 A2 A3 A4]. pose proof A1 as [[G1 G2] G3 G4 G5].
          destruct (refreshModel_ok c rnd size Hrnd Hn Hk (ldesc st) frac force pts (mem st) G2 G1 (proj1 G3)) as [(_ & ->)|(_ & m' & -> & X1 & X2 & X3 & start & X4 & _)]; cbn [obind].
          - exists st. split; [ left; auto | ]. split; auto.
          - eexists. split; [ right; reflexivity | ]. split; cbn [mem lut]; auto.
            + split; cbn [mem ldesc glob px]; auto. split; auto.
            + intros q Hq. unfold SubsensePixel.colour_seen, SubsensePixel.texture_seen. cbn [mem ldesc]. rewrite X2. apply A3. auto.
            + intros s p Hs I. assert (Hp : in_image size p) by (apply inner_image; destruct G3 as [F3 _]; rewrite Forall_forall in F3; auto).
              destruct (X4 s p Hp) as [Y|(_ & _ & _ & Y)]; [ eapply stems_same; eauto | eapply drawn_stems; eauto ]. }
        destruct Step as (st' & Cases & Pa'). cbn [act] in Cases.
        assert (E : (match obind (refreshModel c rnd size (ldesc st) frac force (map (place size) pts) (mem st)) (fun m => Done {| mem := m; ldesc := ldesc st; px := px st; moved := moved st; glob := glob st; lut := lut st; nz := nz st |}) with
           | Done st' => play c rnd size (map (place size) pts) l st' | Refused => play c rnd size (map (place size) pts) l st | Thrown => Thrown | Fault f => Fault f end) = play c rnd size (map (place size) pts) l st').
        { destruct Cases as [(-> & ->)|Ca]; [ reflexivity | rewrite Ca; reflexivity ]. }
        rewrite E. destruct (IH n st' N Pa' Pl F) as [(f & -> & [Y|[(Y1 & Y2 & Y3)|Y]])|[Y|Y]]; auto.
        * left. exists f. split; auto. left. auto.
        * left. exists f. split; auto. right. left. auto.
        * left. exists f. split; auto. right. right. auto.
  Qed.

  (* ------------------------------------------------------------------ initialization *)
  Lemma first_desc_ok img : byte_image img -> forall pts ld, Forall (inner size) pts -> NoDup pts -> (forall i, 0 <= ld i < 2 ^ 16) -> exists ld', first_desc c size img (map (place size) pts) ld = Some ld' /\
    (forall i, 0 <= ld' i < 2 ^ 16) /\
    (forall p, In p pts -> 2 < fst p -> 2 < snd p -> taken (first_lut c) size img p (value k size img p) (fun x => ld' (place size p * k + x))) /\
    (forall p x, in_image size p -> 0 <= x < k -> ~ (In p pts /\ 2 < fst p /\ 2 < snd p) -> ld' (place size p * k + x) = ld (place size p * k + x)).
  Proof.
    intros B. induction pts as [|p pts IH]; intros ld F N R; cbn [map first_desc].
    - exists ld. split; auto. split; auto. split; [ intros p [] | auto ].
    - inversion F as [|? ? Hp F']; subst. inversion N as [|? ? Np N']; subst. pose proof (inner_image _ _ Hp) as Ip. rewrite point_place by auto.
      destruct ((2 <? fst p) && (2 <? snd p) && (fst p <? fst size - 2) && (snd p <? snd size - 2)) eqn:Q.
      + rewrite (describe_ok c rnd size Hrnd Hn Hk) by auto. cbn [bind fst snd]. set (e := map (tex c size (first_lut c) img p) (zrange 0 k)).
        assert (Le : Z.of_nat (length e) = k) by (unfold e; rewrite map_length; unfold zrange; rewrite zseq_length; destruct Hk as [-> | ->]; lia).
        destruct (IH (store1 ld (place size p * k) e) F' N') as (ld' & E & A1 & A2 & A3).
        { intros i. apply (store1_range (fun x => 0 <= x < 2 ^ 16)); auto; [ lia | ]. apply Forall_map, Forall_forall. intros x _. apply (tex_ok c size Hn). auto. }
        exists ld'. split; auto. split; auto. rewrite !andb_true_iff, !Z.ltb_lt in Q. destruct Q as (((Q1 & Q2) & _) & _). split.
        * intros q [<-|I]; [ | auto ]. intros _ _. apply (tex_taken c size Hn); auto. intros x Hx. split; auto. rewrite A3; auto; [ | tauto ].
          destruct (store1_at c rnd size Hrnd Hn ld p e p x Le Ip Ip Hx) as [(_ & ->)|(X & _)]; [ unfold e; now rewrite nth_map_zrange by auto | congruence ].
        * intros q x Hq Hx I. rewrite A3; auto; [ | intros (I1 & I2); apply I; split; auto; now right ].
          destruct (store1_at c rnd size Hrnd Hn ld p e q x Le Ip Hq Hx) as [(-> & _)|(_ & ->)]; auto. exfalso. apply I. split; auto. now left.
      + destruct (IH ld F' N' R) as (ld' & E & A1 & A2 & A3). exists ld'. split; auto. split; auto.
        assert (Z : ~ (2 < fst p /\ 2 < snd p)). { intros [Z1 Z2]. unfold inner in Hp. rewrite !andb_false_iff, !Z.ltb_ge in Q. lia. }
        split.
        * intros q [<-|I]; [ | auto ]. intros Z1 Z2. exfalso. auto.
        * intros q x Hq Hx I. apply A3; auto. intros (I1 & I2). apply I. split; auto. now right.
  Qed.

  Lemma listed_points pxs : LobsterRun.listed size pxs -> pxs = map (place size) (map (point size) pxs) /\ Forall (inner size) (map (point size) pxs).
  Proof.
    intros L. split.
    - rewrite map_map. rewrite <- (map_id pxs) at 1. apply map_ext_in. intros i I. destruct (L i I) as (p & Hp & ->). now rewrite point_place by (apply inner_image; auto).
    - apply Forall_map, Forall_forall. intros i I. destruct (L i I) as (p & Hp & ->). now rewrite point_place by (apply inner_image; auto).
  Qed.

  Lemma initialize_ok cur given img : byte_image img ->
    (initialize_roi 2 cur given (snd size) (fst size) = None /\ initialize c rnd cur given size img = Refused) \/
    exists roi pts st, initialize_roi 2 cur given (snd size) (fst size) = Some roi /\ map (place size) pts = RoiTable.lut (tables_of roi k img) /\
      initialize c rnd cur given size img = Done (map (place size) pts, st) /\ past img (eq img) 0 pts st.
  Proof.
    intros B. unfold initialize. destruct (initialize_roi 2 cur given (snd size) (fst size)) as [roi|] eqn:ER; [ right | left; auto ].
    destruct (away_all 2 cur given _ _ roi ltac:(lia) ER) as (R & Cc & Nz & A). destruct (nonzero_pos roi Nz) as (y0 & x0 & I0 & _). rewrite R, Cc in I0. unfold inside in I0. cbn [fst snd] in I0. set (pxs := RoiTable.lut (tables_of roi k img)).
    assert (L : LobsterRun.listed size pxs).
    { intros i I. unfold pxs in I. apply lut_in in I. destruct I as (Ii & D). unfold data in D. rewrite Cc in *. rewrite R in *.
      assert (W : 0 < fst size) by lia. pose proof (Z.mod_pos_bound i (fst size) W) as X. pose proof (Z.div_mod i (fst size) ltac:(lia)) as Y.
      assert (Zi : 0 <= i / fst size < snd size) by (split; [ apply Z.div_pos; lia | apply Z.div_lt_upper_bound; nia ]).
      exists (i mod fst size, i / fst size). split; [ | unfold place; cbn [fst snd]; lia ].
      specialize (A (i / fst size) (i mod fst size) ltac:(split; cbn [fst snd]; lia) D). unfold away, inner in *. cbn [fst snd] in *. lia. }
    destruct (listed_points pxs L) as [Ep Fp]. set (pts := map (point size) pxs) in *.
    assert (Nd : NoDup pts). { apply (NoDup_map_inv (place size)). rewrite <- Ep. apply LobsterRun.increasing_nodup, lut_increasing. }
    destruct (first_desc_ok img B pts (fun _ => 0) Fp Nd ltac:(intros; lia)) as (ld & Ed & D1 & D2 & D3). rewrite Ep, Ed. cbn [access obind].
    set (m0 := {| col := fun _ _ => 0; dsc := fun _ _ => 0; seen := fun i => nth (Z.to_nat i) (RoiTable.last (tables_of roi k img)) 0; fgmask := fun _ => false; used := 0 |}).
    assert (S0 : sound m0).
    { split; cbn [col dsc seen m0]; try (intros; lia). intros i. destruct (Nat.lt_ge_cases (Z.to_nat i) (length (RoiTable.last (tables_of roi k img)))).
      - pose proof (LobsterRun.last_bytes (shape c) Hn roi img B) as F. rewrite Forall_forall in F. apply F, nth_In. auto.
      - rewrite nth_overflow by auto. lia. }
    assert (M0 : masked k size pxs img (seen m0)).
    { intros p x Hp Hx. pose proof (place_range size p Hp) as Rg. unfold value. cbn [seen m0]. fold (place size p).
      rewrite last_ok by (rewrite ?R, ?Cc; lia || lia). unfold pxs. split.
      - intros I. apply lut_in in I. destruct I as (_ & D). apply Z.eqb_neq in D. rewrite D. reflexivity.
      - intros N. destruct (Z.eqb_spec (data roi (place size p)) 0) as [E|E]; auto. exfalso. apply N, lut_in. rewrite R, Cc. split; auto. lia. }
    destruct (refreshModel_ok c rnd size Hrnd Hn Hk ld 1 false pts m0 D1 S0 Fp) as [(X & _)|(_ & m & -> & A1 & A2 & A3 & start & A4 & A5)].
    { exfalso. apply X. split; lra. }
    cbn [obind]. eexists roi, pts, _. split; auto. split; [ symmetry; exact Ep | ]. split; [ reflexivity | ].
    assert (Cells : forall q, inner size q -> kept (map (place size) pts) img (eq img) q (fun x => seen m (place size q * k + x)) (fun x => ld (place size q * k + x))).
    { intros q Hq. pose proof (inner_image _ _ Hq) as Iq. rewrite <- Ep, A2. destruct (in_dec Z.eq_dec (place size q) pxs) as [I|I].
      - assert (Ip : In q pts) by (apply (in_places size q pts Iq Fp); rewrite <- Ep; exact I).
        assert (V : forall x, 0 <= x < k -> seen m0 (place size q * k + x) = value k size img q x) by (intros x Hx; destruct (M0 q x Iq Hx) as [V _]; exact (V I)).
        destruct (Z.eq_dec (fst q) 2) as [Q1|Q1]; [ | destruct (Z.eq_dec (snd q) 2) as [Q2|Q2] ].
        + right. right. split; auto. split; auto. intros x Hx. split; auto. apply D3; auto. intros (_ & Y & _). lia.
        + right. right. split; auto. split; auto. intros x Hx. split; auto. apply D3; auto. intros (_ & _ & Y). lia.
        + left. split; auto. exists img, (first_lut c). split; auto. split; [ apply table_first | ]. eapply taken_ext; [ | apply D2; auto; unfold inner in Hq; lia ]. intros x Hx. split; auto.
      - right. left. split; auto. intros x Hx. split; [ destruct (M0 q x Iq Hx) as [_ V]; exact (V I) | ]. apply D3; auto. intros (Ip & _). apply I. rewrite Ep. apply in_map. auto. }
    split; cbn [lut mem]; auto.
    - split; cbn [mem ldesc glob px]; auto.
      + split; auto.
      + split; [ reflexivity | ]. apply (Proofs.Subsense.i_caps _ _ _ (Proofs.Subsense.inv_start (loop c))).
      + intros p _. apply Proofs.Subsense.inv_start.
    - apply table_first.
    - intros s p Hs I. destruct (A5 (or_intror (fun _ => eq_refl)) s p I) as (q & X1 & X2 & X3 & X4).
      { apply (window_all c rnd); auto. }
      exists q. split; auto. split; auto. eapply kept_ext; [ | apply Cells; auto ]. rewrite A2. exact X4.
  Qed.

  (* ------------------------------------------------------------------ uniform scenes *)
  Lemma mismatch_thr v thr thr' d : 0 <= thr -> 0 <= thr' -> mismatch (map (fun _ => v) pattern) v thr d = mismatch (map (fun _ => v) pattern) v thr' d.
  Proof.
    intros A B. unfold mismatch. apply count_ext_in. intros [n x] I. apply in_combine_r in I. apply in_map_iff in I. destruct I as (o & <- & _). cbn [fst snd].
    rewrite Z.sub_diag. change (Z.abs 0) with 0. rewrite (proj2 (Z.ltb_ge thr 0)), (proj2 (Z.ltb_ge thr' 0)) by auto. reflexivity.
  Qed.
  Lemma mismatch_flat v thr : 0 <= thr -> mismatch (map (fun _ => v) pattern) v thr 0 = 0.
  Proof.
    intros A. unfold mismatch. rewrite (count_ext_in _ (fun _ => false)).
    - assert (E : forall l : list (nat * Z), Grid.count (fun _ => false) l = 0) by (induction l as [|a l IH]; [ reflexivity | rewrite count_cons; cbn; exact IH ]). apply E.
    - intros [n x] I. apply in_combine_r in I. apply in_map_iff in I. destruct I as (o & <- & _). cbn [fst snd].
      rewrite Z.sub_diag. change (Z.abs 0) with 0. rewrite (proj2 (Z.ltb_ge thr 0)) by auto. rewrite Z.testbit_0_l. reflexivity.
  Qed.

  Lemma uniform_gaps tint pts first (P : (Z -> Z) -> Prop) im l m s p : (forall i, P i -> uniform k size tint i) -> uniform k size tint first -> uniform k size tint im -> byte_image im -> table c l ->
    inner size p -> (forall q, inner size q -> within 3 p q -> In (place size q) (map (place size) pts)) -> stems pts first P m s p -> Spec.Subsense.same (gaps_of l im p m s).
  Proof.
    intros HP Uf Ui Bi T Hp N (q & Hq & W & Kp). unfold SubsensePixel.gaps_of, gaps. apply Forall_map, Forall_forall. intros x I. apply in_zrange in I.
    assert (V : value k size im p x = tint x) by (apply Ui; auto using inner_image; lia).
    assert (Tb : 0 <= tint x <= 255) by (rewrite <- V; apply Bi). pose proof (table_byte c l (tint x) T Tb) as Lb.
    assert (E : colour_at m s p x = tint x /\ forall thr, 0 <= thr -> mismatch (map (fun _ => tint x) pattern) (tint x) thr (texture_at m s p x) = 0).
    { destruct Kp as [(_ & src & l' & K1 & K2 & K3)|[(K1 & _)|(_ & _ & K3)]].
      - destruct (K3 x ltac:(lia)) as (Eb & _ & Em). rewrite (HP _ K1 q x) in Eb by (auto using inner_image; lia). split; auto. rewrite Eb in Em.
        pose proof (LobsterRun.around_uniform (shape c) size Hn src q x (tint x)) as Au. change (channels (shape c)) with k in Au. rewrite Au in Em; auto; clear Au.
        + intros thr Ht. rewrite <- Em. apply mismatch_thr; auto. apply (table_byte c l' (tint x) K2 Tb).
        + intros r Hr _. apply (HP _ K1); auto.
      - exfalso. apply K1. auto.
      - destruct (K3 x ltac:(lia)) as (Eb & Ed). rewrite (Uf q x) in Eb by (auto using inner_image; lia). split; auto. rewrite Ed. apply mismatch_flat. }
    destruct E as [Ec Em]. unfold gap. rewrite V, Ec.
    pose proof (LobsterRun.around_uniform (shape c) size Hn im p x (tint x)) as Au. change (channels (shape c)) with k in Au. rewrite Au by (auto; intros r Hr _; apply Ui; auto; lia). clear Au.
    rewrite !Em by lia. rewrite Z.sub_diag. reflexivity.
  Qed.

  Lemma static tint img pts st n l ov ratio im m st' : (needed c <= count c)%nat -> 0 <= n -> (0 <= ratio)%Q -> uniform k size tint img -> (forall i, In i (frames l) -> uniform k size tint i) -> byte_image im -> uniform k size tint im ->
    past img (fun i => i = img \/ In i (frames l)) n pts st -> apply c rnd ov ratio size (map (place size) pts) im st = Done (m, st') ->
    forall p fg, inner size p -> (forall q, inner size q -> within 3 p q -> In (place size q) (map (place size) pts)) -> In (place size p, fg) m -> fg = false.
  Proof.
    intros Rq N Hr U Ul Bi Ui Pa E p fg Hp Nb I.
    destruct (apply_ok ov ratio pts im st n Bi Hr N (a_sane _ _ _ _ _ Pa)) as [(X & _)|[(X & _)|[(X & _)|[(X & _)|(m' & s' & X & D)]]]]; rewrite E in X; try discriminate. injection X as <- <-.
    destruct Pa as [A1 A2 A3 A4]. pose proof (n_pts _ _ _ A1) as [Fp Nd].
    assert (Ip : In p pts) by (apply (in_places size p pts (inner_image _ _ Hp) Fp); rewrite <- (d_pts _ _ _ _ _ _ D); apply in_map_iff; exists (place size p, fg); auto).
    pose proof Ip as Ip'. apply in_split in Ip'. destruct Ip' as (pre & post & Ep). destruct (d_step _ _ _ _ _ _ D pre p post Ep) as (m1 & fg' & m2 & mid & Em & Em1 & Gm & Fm & St).
    assert (fg' = fg). { rewrite Em in I. assert (Nm : NoDup (map fst (m1 ++ (place size p, fg') :: m2))).
      { rewrite <- Em, (d_pts _ _ _ _ _ _ D). clear - Fp Nd. induction pts as [|a pts' IH]; cbn [map]; [ constructor | ]. inversion Fp as [|? ? Fa Fb]; subst. inversion Nd as [|? ? Na Nc]; subst. constructor; auto.
        intros J. apply Na. apply (in_places size a pts' (inner_image _ _ Fa) Fb J). }
      apply (LobsterRun.fst_unique m1 m2 (place size p) fg' fg Nm) in I. auto. }
    subst fg'. eapply Proofs.Subsense.identical; [ exact Kc | | | exact St ].
    - destruct (Proofs.Subsense.i_radius _ _ _ (n_inv _ _ _ A1 p Ip)) as [R _]. exact R.
    - cbn [input_of Subsense.samples loop Subsense.required]. apply LobsterRun.all_at_least; [ | rewrite map_length, seq_length; auto ].
      intros sm J. apply in_map_iff in J. destruct J as (s & <- & Js). apply in_seq in Js.
      eapply (uniform_gaps tint pts img (fun i => i = img \/ In i (im :: frames l))); eauto.
      + intros i [-> |[<-|J]]; auto.
      + assert (Old : stems pts img (fun i => i = img \/ In i (im :: frames l)) (mem st) s p).
        { destruct (A4 s p ltac:(lia) Ip) as (q & B1 & B2 & B3). exists q. do 2 (split; auto). destruct B3 as [(C1 & i & l' & C2 & C3)|B3]; [ left | right; exact B3 ]. split; auto. exists i, l'. split; auto. destruct C2 as [C2|C2]; [ now left | right; now right ]. }
        destruct (Fm s p (inner_image _ _ Hp)) as [Sm|Up]; [ eapply stems_same; eauto | ]. eapply updated_stems; [ | exact A2 | | exact Up ]; [ right; now left | ].
        intros i b J. rewrite Ep, map_app. apply in_or_app. left. rewrite <- Em1. apply in_map_iff. exists (i, b). auto.
  Qed.
End Run.

(* ------------------------------------------------------------------ reachable states *)
Lemma reachable c rnd size cur given img pxs st0 l : (forall n, 0 <= rnd n) -> (0 < count c)%nat -> ch c = 1 \/ ch c = 3 -> Spec.Subsense.config_ok (loop c) -> byte_image img -> proper l ->
  initialize c rnd cur given size img = Done (pxs, st0) ->
  exists pts, pxs = map (place size) pts /\
  let P := fun im => im = img \/ In im (frames l) in
  ((exists f, play c rnd size pxs l st0 = Fault (Loop f) /\ broken c 0 l f) \/
   (play c rnd size pxs l st0 = Thrown /\ large c = true /\ (fst size / 8 = 0 \/ snd size / 8 = 0)) \/
   exists st, play c rnd size pxs l st0 = Done st /\ past c size img P (Z.of_nat (length (frames l))) pts st).
Proof.
  intros Hr Hn Hk Kc B Bl E. destruct (initialize_ok c rnd size Hr Hn Hk cur given img B) as [(_ & X)|(roi & pts & st & _ & _ & X & Pa)]; rewrite X in E; [ discriminate | ].
  injection E as <- <-. exists pts. split; auto. cbv zeta.
  assert (Pa' : past c size img (fun im => im = img \/ In im (frames l)) 0 pts st).
  { destruct Pa as [A1 A2 A3 A4]. assert (W : forall q b d, kept c size (map (place size) pts) img (eq img) q b d -> kept c size (map (place size) pts) img (fun im => im = img \/ In im (frames l)) q b d).
    { intros q b d [(C1 & i & l' & C2 & C3)|H]; [ left | right; exact H ]. split; auto. exists i, l'. split; auto. }
    split; auto. intros s p Hs I. destruct (A4 s p Hs I) as (q & B1 & B2 & B3). exists q. auto. }
  apply (play_ok c rnd size Hr Hn Hk Kc img _ pts l 0 st ltac:(lia) Pa' Bl). intros im I. right. auto.
Qed.

Lemma at_least_map {A B} (f : A -> B) (P : B -> Prop) n l : Spec.Subsense.at_least n P (map f l) <-> Spec.Subsense.at_least n (fun x => P (f x)) l.
Proof.
  unfold Spec.Subsense.at_least. split; intros (ks & N & L & H); exists ks; do 2 (split; auto); intros j J; destruct (H j J) as (s & E & X).
  - rewrite nth_error_map in E. destruct (nth_error l j) as [a|]; [ | discriminate ]. injection E as <-. exists a. auto.
  - exists (f s). rewrite nth_error_map, E. auto.
Qed.

(* the table through a frame, whatever else happens *)
Lemma apply_pixel_lut c rnd ov size img al as_ st i r st' : apply_pixel c rnd ov size img al as_ st i = Done (r, st') -> lut st' = lut st.
Proof.
  unfold apply_pixel.
  repeat match goal with |- obind ?o _ = _ -> _ => destruct o; cbn [obind]; [ | discriminate | discriminate | discriminate ] end.
  intros X. injection X as _ <-. reflexivity.
Qed.
Lemma apply_pixels_lut c rnd ov size img al as_ : forall l st r st', apply_pixels c rnd ov size img al as_ l st = Done (r, st') -> lut st' = lut st.
Proof.
  induction l as [|i l IH]; intros st r st'; cbn [apply_pixels]; [ intros X; injection X as _ <-; reflexivity | ].
  destruct (apply_pixel c rnd ov size img al as_ st i) as [[a st1]| | |] eqn:E1; cbn [obind]; try discriminate. cbn [snd].
  destruct (apply_pixels c rnd ov size img al as_ l st1) as [[b st2]| | |] eqn:E2; cbn [obind]; try discriminate. intros X. injection X as _ <-. cbn [snd].
  rewrite (IH _ _ _ E2). exact (apply_pixel_lut _ _ _ _ _ _ _ _ _ _ _ E1).
Qed.
Lemma apply_lut c rnd ov ratio size pxs img st m st' : apply c rnd ov ratio size pxs img st = Done (m, st') -> exists now before, lut st' = adapt c now before (lut st).
Proof.
  unfold apply. destruct (Subsense.factor _ _) as [al|]; [ | discriminate ]. destruct (Subsense.factor _ _) as [as_|]; [ | discriminate ].
  match goal with |- obind ?o _ = _ -> _ => destruct o as [[a s]| | |] eqn:E end; cbn [obind]; try discriminate. cbn [fst snd]. apply apply_pixels_lut in E. cbn [lut] in E.
  destruct (_ && _); [ discriminate | ].
  match goal with |- obind ?o _ = _ -> _ => destruct o as [rg| | |] end; cbn [obind]; try discriminate.
  match goal with |- obind ?o _ = _ -> _ => destruct o as [m2| | |] end; cbn [obind]; try discriminate.
  intros X. injection X as _ <-. cbn [lut]. rewrite E. eauto.
Qed.
Lemma play_monotone c rnd size pxs : (0 <= rel c)%Q -> forall l st st', table c (lut st) -> monotone (lut st) -> play c rnd size pxs l st = Done st' -> monotone (lut st').
Proof.
  intros R. induction l as [|e l IH]; intros st st' T M; cbn [play]; [ intros X; injection X as <-; auto | ].
  destruct (act c rnd size pxs e st) as [s| | |] eqn:E; try discriminate; [ | apply IH; auto ].
  assert (H : lut s = lut st \/ exists now before, lut s = adapt c now before (lut st)).
  { destruct e as [img ov ratio|frac force]; cbn [act] in E.
    - right. destruct (apply c rnd ov ratio size pxs img st) as [[m s']| | |] eqn:Ea; cbn [obind] in E; try discriminate. injection E as <-. exact (apply_lut _ _ _ _ _ _ _ _ _ _ Ea).
    - left. destruct (refreshModel _ _ _ _ _ _ _ _); cbn [obind] in E; try discriminate. injection E as <-. reflexivity. }
  destruct H as [H|(now & before & H)]; apply IH; rewrite H; auto; [ apply table_adapt; auto | apply adapt_monotone; auto ].
Qed.
Lemma initialize_lut c rnd cur given size img pxs st : initialize c rnd cur given size img = Done (pxs, st) -> lut st = first_lut c.
Proof.
  unfold initialize. destruct (initialize_roi _ _ _ _ _); [ | discriminate ].
  repeat match goal with |- obind ?o _ = _ -> _ => destruct o; cbn [obind]; [ | discriminate | discriminate | discriminate ] end. intros X. injection X as _ <-. reflexivity.
Qed.

Lemma refresh_none c rnd size ld force pxs m m' : (count c < 10)%nat -> refreshModel c rnd size ld (1 # 10) force pxs m = Done m' -> col m' = col m /\ dsc m' = dsc m.
Proof.
  intros Hc. unfold refreshModel. change (Qle_bool (1 # 10) 0 || negb (Qle_bool (1 # 10) 1)) with false. change (Qle_bool 1 (1 # 10)) with false. cbv iota.
  replace (Z.to_nat (Qfloor ((1 # 10) * inject_Z (Z.of_nat (count c))))) with 0%nat.
  2: { symmetry. assert (E : Qfloor ((1 # 10) * inject_Z (Z.of_nat (count c))) = Z.of_nat (count c) / 10) by (unfold Qfloor, inject_Z, Qmult; cbn [Qnum Qden]; rewrite Z.mul_1_l; reflexivity).
       rewrite E, Z.div_small by lia. reflexivity. }
  generalize (Z.to_nat (rnd (used m) mod Z.of_nat (count c))). intros start. destruct (refresh c rnd size ld force start 0 pxs (tick m)) as [x|] eqn:E; cbn [access]; [ | discriminate ].
  intros X. injection X as <-. assert (H : x = tick m); [ | subst; split; reflexivity ]. revert E. generalize (tick m). unfold refresh. induction pxs as [|i l IH]; intros a; cbn [iter seq]; [ congruence | ].
  destruct (if force then Some false else get (fst size * snd size) (fgmask a) i) as [[|]|]; cbn [bind]; [ apply IH | apply IH | discriminate ].
Qed.
