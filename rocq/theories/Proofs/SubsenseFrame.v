From Coq Require Import ZArith NArith QArith Qround List Bool Lia Lqa.
From Verif Require Import Lib.Grid Model.Bits Model.Distances Model.Sampling Model.Lbsp Model.RoiTable Model.Pbas Spec.Lbsp Spec.RoiTable Proofs.RoiTable.
From Verif Require Spec.Subsense Proofs.Subsense.
From Verif Require Import Proofs.Lobster.
From Verif Require Proofs.LobsterRun.
From Verif Require Import Spec.Vibe Model.Lobster Spec.Lobster.
From Verif Require Import Model.SubsenseFrame Spec.SubsenseFrame Proofs.SubsensePixel.
Import ListNotations.
Open Scope Z_scope.

(* what depends on the final mask can be filled in later *)
Lemma close_step c g al as_ smp fin dil ratio p fg p1 : Subsense.pixel_step c g al as_ (dummy smp) p = Subsense.Done (fg, p1) ->
  Subsense.pixel_step c g al as_ {| Subsense.samples := smp; Subsense.final := fin; Subsense.dilated := dil; Subsense.diff_ratio := ratio |} p = Subsense.Done (fg, close_pixel al as_ fin dil p p1).
Proof.
  unfold Subsense.pixel_step. destruct (64 <=? _)%Z; [ discriminate | ]. cbn [Subsense.samples dummy].
  destruct (Subsense.scan _ _ _ _ _ _) as [good [ls ld]]. intros E. injection E as <- <-. unfold close_pixel. cbn. reflexivity.
Qed.

Lemma nodup_app {A} (a b : list A) : NoDup (a ++ b) -> NoDup a /\ NoDup b /\ forall x, In x a -> ~ In x b.
Proof.
  induction a as [|x a IH]; cbn [app]; intros N.
  - split; [ constructor | ]. split; auto.
  - inversion N as [|? ? N1 N2]; subst. destruct (IH N2) as (A1 & A2 & A3). split; [ constructor; auto; intros I; apply N1, in_or_app; now left | ]. split; auto.
    intros y [<-|I] J; [ apply N1, in_or_app; now right | eapply A3; eauto ].
Qed.

Section Frame.
  Context (c : config) (rnd : nat -> Z) (size : Z * Z) (Hrnd : forall k, 0 <= rnd k) (Hn : (0 < count c)%nat) (Hk : ch c = 1 \/ ch c = 3).
  Notation k := (ch c).
  Notation colour_at := (colour_at (shape c) size). Notation texture_at := (texture_at (shape c) size). Notation same := (same (shape c) size).
  Notation taken := (taken k). Notation fed := (fed c size). Notation gaps_of := (gaps_of c size). Notation colour_seen := (colour_seen c size). Notation texture_seen := (texture_seen c size).
  Lemma Hc' : 0 < k. Proof. destruct Hk as [-> | ->]; reflexivity. Qed.

  (* a sample that was written during a frame: by a background pixel, or by the pixel itself during a reset *)
  Definition updated (img : Z -> Z) (u : Z -> bool) (m : list (Z * bool)) (st : state) (mm : Lobster.state) (s : nat) (p : Z * Z) : Prop :=
    (s < count c)%nat /\ inner size p /\ exists q b, inner size q /\ In (place size q, b) m /\ (b = false \/ (Subsense.cooldown (glob st) <> 0 /\ p = q)) /\
      fed (if spread3 c && negb (u (place size q)) then 1 else 2) (lut st) img q mm s p.
  Lemma updated_same img u m st a b s p : same a b s p -> updated img u m st a s p -> updated img u m st b s p.
  Proof. intros S (A & B & q & f & C1 & C2 & C3 & C4). split; auto. split; auto. exists q, f. do 3 (split; auto). eapply fed_same; eauto. Qed.
  Lemma updated_more img u u' m m' st st' mm s p : (forall q b, In (place size q, b) m -> In (place size q, b) m' /\ u' (place size q) = u (place size q)) -> Subsense.cooldown (glob st') = Subsense.cooldown (glob st) -> lut st' = lut st ->
    updated img u m st mm s p -> updated img u' m' st' mm s p.
  Proof.
    intros H G L (A & B & q & f & C1 & C2 & C3 & C4). destruct (H q f C2) as [H1 H2]. split; auto. split; auto. exists q, f. rewrite G, L, H2. auto.
  Qed.

  Record framed (img : Z -> Z) (pts : list (Z * Z)) (st : state) (m : list (Z * bool)) (st' : state) : Prop := {
    f_good : good st';
    f_pts : map fst m = map (place size) pts;
    f_other : forall i, ~ In i (map (place size) pts) -> px st' i = px st i;
    f_fed : forall s p, in_image size p -> same (mem st) (mem st') s p \/ updated img (fun i => Subsense.unstable (px st' i)) m st (mem st') s p;
    f_here : forall p, In p pts -> taken (lut st) size img p (colour_seen st' p) (texture_seen st' p);
    f_there : forall p x, in_image size p -> ~ In p pts -> 0 <= x < k -> colour_seen st' p x = colour_seen st p x /\ texture_seen st' p x = texture_seen st p x;
    f_rest : glob st' = glob st /\ lut st' = lut st /\ nz st' = nz st /\ fgmask (mem st') = fgmask (mem st);
    f_kept : (forall i b, In (i, b) m -> b = true) -> Subsense.cooldown (glob st) = 0 -> col (mem st') = col (mem st) /\ dsc (mem st') = dsc (mem st) /\ used (mem st') = used (mem st) }.

  Definition fit (st : state) (pts : list (Z * Z)) : Prop := Forall (inner size) pts /\ NoDup pts /\ (1 <= Subsense.low_cap (glob st))%Q /\ (forall p, In p pts -> (1 <= Subsense.rate (px st (place size p)))%Q).

  Lemma in_places p pts : in_image size p -> Forall (inner size) pts -> In (place size p) (map (place size) pts) -> In p pts.
  Proof.
    intros Hp F I. apply in_map_iff in I. destruct I as (q & E & I). rewrite Forall_forall in F. apply place_inj in E; auto; [ | apply inner_image; auto ]. subst. auto.
  Qed.

  Lemma apply_pixels_ok ov img al as_ : byte_image img -> forall pts st, good st -> fit st pts ->
    (exists p, In p pts /\ 64 <= Subsense.shift_amount (px st (place size p)) /\ apply_pixels c rnd ov size img al as_ (map (place size) pts) st = Fault (Loop Subsense.Shift64)) \/
    exists m st', apply_pixels c rnd ov size img al as_ (map (place size) pts) st = Done (m, st') /\ framed img pts st (raw m) st'.
  Proof.
    intros B. induction pts as [|p pts IH]; intros st G (F & N & LC & R); cbn [map apply_pixels].
    - right. exists [], st. split; auto. split; auto; try (intros; left; apply same_refl). intros p [].
    - inversion F as [|? ? Hp F']; subst. inversion N as [|? ? Np N']; subst.
      destruct (apply_pixel_ok c rnd size Hrnd Hn Hk ov img al as_ p st B G Hp LC (R p (or_introl eq_refl))) as [(f & PS & ->)|(fg & b & st1 & -> & [E1 (p1 & E2 & E3 & E4) E5 E6 (E7 & E8 & E9 & E10) E11])].
      { apply Proofs.Subsense.pixel_step_fault in PS. destruct PS as [-> PS]. left. exists p. split; [ now left | ]. auto. }
      cbn [obind fst snd].
      assert (Npx : forall q, In q pts -> place size q <> place size p).
      { intros q I E. apply place_inj in E; [ congruence | | ]; apply inner_image; auto. rewrite Forall_forall in F'. auto. }
      assert (Px : forall q, In q pts -> px st1 (place size q) = px st (place size q)).
      { intros q I. rewrite E3. unfold set1. destruct (Z.eqb_spec (place size q) (place size p)) as [E|E]; auto. exfalso. apply (Npx q I E). }
      assert (Fit : fit st1 pts). { split; auto. split; auto. split; [ rewrite E7; auto | ]. intros q I. rewrite Px by auto. apply R. now right. }
      destruct (IH st1 E1 Fit) as [(q & I & Sh & ->)|(m & st2 & -> & [F1 F2 F3 F4 F5 F6 (F7 & F8 & F9 & F10) F11])]; cbn [obind fst snd].
      { left. exists q. split; [ now right | ]. rewrite <- Px by auto. auto. }
      right. exists ((place size p, (fg, b)) :: m), st2. split; auto.
      assert (Pp : px st2 (place size p) = p1).
      { rewrite F3; [ rewrite E3; unfold set1; rewrite Z.eqb_refl; auto | ]. intros I. apply in_map_iff in I. destruct I as (q & E & I). apply (Npx q I E). }
      cbn [raw map fst snd]. fold (raw m). split; auto; try congruence.
      + cbn [map fst]. rewrite F2. reflexivity.
      + intros i I. rewrite F3 by (intros X; apply I; now right). rewrite E3. unfold set1. destruct (Z.eqb_spec i (place size p)) as [->|]; auto. exfalso. apply I. now left.
      + intros s p' Hp'. destruct (F4 s p' Hp') as [S|U].
        2: { right. eapply updated_more; [ | | | exact U ]; [ | congruence | congruence ]. intros q b' I. split; [ now right | reflexivity ]. }
        destruct (E4 s p' Hp') as [S'|(A1 & A2 & A3 & A4)]; [ left; eapply same_trans; eauto | right ].
        split; auto. split; auto. exists p, fg. split; auto. split; [ now left | ]. split; [ exact A3 | ]. rewrite Pp. eapply fed_same; eauto.
      + intros q [<-|I].
        * eapply taken_ext; [ | exact E5 ]. intros x Hx. destruct (F6 p x (inner_image _ _ Hp) Np Hx) as [-> ->]. auto.
        * rewrite <- E8. auto.
      + intros q x Hq I Hx. destruct (F6 q x Hq ltac:(intros X; apply I; now right) Hx) as [-> ->]. apply E6; auto. intros ->. apply I. now left.
      + rewrite F7, F8, F9, F10. auto.
      + intros H C0. assert (fg = true) by (apply (H (place size p)); now left). destruct (E11 H0 C0) as (K1 & K2 & K3). destruct F11 as (K4 & K5 & K6); [ intros i x I; apply (H i); now right | congruence | ].
        rewrite K4, K5, K6. auto.
  Qed.

  Lemma apply_pixels_app ov img al as_ : forall l1 l2 st m st', apply_pixels c rnd ov size img al as_ (l1 ++ l2) st = Done (m, st') ->
    exists m1 m2 st1, apply_pixels c rnd ov size img al as_ l1 st = Done (m1, st1) /\ apply_pixels c rnd ov size img al as_ l2 st1 = Done (m2, st') /\ m = m1 ++ m2.
  Proof.
    induction l1 as [|i l1 IH]; intros l2 st m st'; cbn [app apply_pixels].
    - intros E. exists [], m, st. auto.
    - destruct (apply_pixel c rnd ov size img al as_ st i) as [[fg sa]| | |]; cbn [obind fst snd]; try discriminate.
      destruct (apply_pixels c rnd ov size img al as_ (l1 ++ l2) sa) as [[mb sb]| | |] eqn:E; cbn [obind fst snd]; try discriminate. intros X. injection X as <- <-.
      destruct (IH _ _ _ _ E) as (m1 & m2 & s1 & -> & E2 & ->). cbn [obind fst snd]. exists ((i, fg) :: m1), m2, s1. auto.
  Qed.

  Lemma fit_app st a b : fit st (a ++ b) -> fit st a.
  Proof.
    intros (F & N & LC & R). split; [ apply Forall_app in F; apply F | ]. split; [ apply nodup_app in N; apply N | ]. split; auto. intros q I. apply R, in_or_app. now left.
  Qed.

  (* the decision of a pixel is taken with the samples as the pixels before it left them *)
  Lemma pixel_decision ov img al as_ pre p post st m st' : byte_image img -> good st -> fit st (pre ++ p :: post) ->
    apply_pixels c rnd ov size img al as_ (map (place size) (pre ++ p :: post)) st = Done (m, st') ->
    exists m1 mid fg m2, apply_pixels c rnd ov size img al as_ (map (place size) pre) st = Done (m1, mid) /\ framed img pre st (raw m1) mid /\ raw m = raw m1 ++ (place size p, fg) :: m2 /\
      (forall i, In i (map (place size) pre) -> px st' i = px mid i) /\
      Subsense.pixel_step (loop c) (glob st) al as_ (dummy (map (gaps_of (lut st) img p (mem mid)) (seq 0 (count c)))) (px st (place size p)) = Subsense.Done (fg, px st' (place size p)).
  Proof.
    intros B G Fi E. rewrite map_app in E. cbn [map] in E. destruct (apply_pixels_app _ _ _ _ _ _ _ _ _ E) as (m1 & m2 & mid & E1 & E2 & ->).
    destruct (apply_pixels_ok ov img al as_ B pre st G (fit_app _ _ _ Fi)) as [(q & _ & _ & X)|(m1' & mid' & X & F1)]; rewrite X in E1; [ discriminate | ]. injection E1 as -> ->.
    destruct Fi as (Fa & N & LC & R). pose proof (proj2 (proj1 (Forall_app _ _ _) Fa)) as Fb. inversion Fb as [|? ? Hp Fc]; subst.
    destruct (nodup_app _ _ N) as (_ & Nb & Nd). inversion Nb as [|? ? Nb1 Nb2]; subst.
    pose proof F1 as [A1 A2 A3 A4 A5 A6 (A7 & A8 & A9 & A10) A11]. cbn [apply_pixels] in E2.
    assert (Other : forall q, In q (p :: post) -> px mid (place size q) = px st (place size q)).
    { intros q I. apply A3. intros X'. apply in_places in X'; [ | | apply Forall_app in Fa; apply Fa ].
      - apply (Nd q X' I).
      - apply inner_image. rewrite Forall_forall in Fb. apply Fb. auto. }
    destruct (apply_pixel_ok c rnd size Hrnd Hn Hk ov img al as_ p mid B A1 Hp) as [(f & PS & Y)|(fg & b & st1 & Y & [B1 (p1 & B2 & B3 & B4) B5 B6 (B7 & B8 & B9 & B10) B11])].
    { rewrite A7. auto. } { rewrite Other by now left. apply R, in_or_app. right. now left. }
    { rewrite Y in E2. discriminate. }
    rewrite Y in E2. cbn [obind fst snd] in E2.
    assert (Npx : forall q, In q post -> place size q <> place size p).
    { intros q I Z. apply place_inj in Z; [ congruence | | ]; apply inner_image; auto. rewrite Forall_forall in Fc. auto. }
    destruct (apply_pixels_ok ov img al as_ B post st1 B1) as [(q & _ & _ & Z)|(m3 & st3 & Z & F3)].
    { split; auto. split; auto. split; [ rewrite B7, A7; auto | ]. intros q I. rewrite B3. unfold set1. destruct (Z.eqb_spec (place size q) (place size p)) as [W|W]; [ exfalso; apply (Npx q I W) | ].
      rewrite Other by now right. apply R, in_or_app. right. now right. }
    { rewrite Z in E2. discriminate. }
    rewrite Z in E2. cbn [obind fst snd] in E2. injection E2 as <- <-.
    exists m1, mid, fg, (raw m3). split; auto. split; auto. split; [ unfold raw; rewrite map_app; reflexivity | ].
    split.
    { intros i I. apply in_map_iff in I. destruct I as (q & <- & I). assert (Hq : inner size q) by (apply Forall_app in Fa; destruct Fa as [Fa _]; rewrite Forall_forall in Fa; auto).
      assert (Nq : forall r, In r (p :: post) -> place size q <> place size r).
      { intros r Ir Er. apply place_inj in Er; [ | apply inner_image; auto | apply inner_image; rewrite Forall_forall in Fb; auto ]. subst r. apply (Nd q I Ir). }
      rewrite (f_other _ _ _ _ _ F3); [ | intros X'; apply in_map_iff in X'; destruct X' as (r & Er & Ir); apply (Nq r); [ now right | auto ] ].
      rewrite B3. unfold set1. destruct (Z.eqb_spec (place size q) (place size p)) as [W|W]; auto. exfalso. apply (Nq p); auto. now left. }
    rewrite <- A7, <- A8, <- (Other p (or_introl eq_refl)). rewrite B2. f_equal. f_equal.
    rewrite (f_other _ _ _ _ _ F3). { rewrite B3. unfold set1. rewrite Z.eqb_refl. auto. }
    intros I. apply in_map_iff in I. destruct I as (q & W & I). apply (Npx q I W).
  Qed.

  (* ------------------------------------------------------------------ refreshing *)
  (* the sample holds what is kept of a point not more than 3 away, which may be asked not to be foreground *)
  Definition drawn (force : bool) (mask : Z -> bool) (sn ld : Z -> Z) (m : Lobster.state) (s : nat) (p : Z * Z) : Prop :=
    exists q, inner size q /\ within 3 p q /\ (force = true \/ mask (place size q) = false) /\
      forall x, 0 <= x < k -> colour_at m s p x = sn (place size q * k + x) /\ texture_at m s p x = ld (place size q * k + x).
  Lemma drawn_same force mask sn ld m m' s p : same m m' s p -> drawn force mask sn ld m s p -> drawn force mask sn ld m' s p.
  Proof. intros S (q & A & B & C & D). exists q. do 3 (split; auto). intros x Hx. destruct (S x Hx) as [-> ->]. auto. Qed.
  Definition open (force : bool) (mask : Z -> bool) : Prop := force = true \/ forall i, mask i = false.

  Lemma refresh_one_ok ld force p m n : (forall i, 0 <= ld i < 2 ^ 16) -> sound m -> inner size p -> exists m', refresh_one c rnd size ld force (place size p) m n = Some m' /\
    sound m' /\ seen m' = seen m /\ fgmask m' = fgmask m /\
    (forall s' p', in_image size p' -> same m m' s' p' \/ ((s', p') = (Nat.modulo n (count c), p) /\ drawn force (fgmask m) (seen m) ld m' s' p')) /\
    (open force (fgmask m) -> drawn force (fgmask m) (seen m) ld m' (Nat.modulo n (count c)) p).
  Proof.
    intros Hd Hs Hp. unfold refresh_one. rewrite (point_place size p) by (apply inner_image; auto).
    destruct (sample_inner (rnd (used m)) p size (Hrnd _) Hp) as [Hq Wq]. set (q := getSamplePosition_7x7_std2 (rnd (used m)) p 2 size) in *.
    set (v := map (fun x => seen m (place size q * k + x)) (zrange 0 k)). set (d := map (fun x => ld (place size q * k + x)) (zrange 0 k)).
    assert (Lv : Z.of_nat (length v) = k) by (unfold v; rewrite map_length; unfold zrange; rewrite zseq_length; lia).
    assert (Ld : Z.of_nat (length d) = k) by (unfold d; rewrite map_length; unfold zrange; rewrite zseq_length; lia).
    destruct (write_ok (shape c) rnd size Hrnd Hn Hc' (tick m) (Nat.modulo n (count c)) p v d Lv Ld (inner_image _ _ Hp)) as (m' & W & [Wh Wo Ws Wm Wu Wsd]). change (channels (shape c)) with k in W.
    assert (K : force = true \/ fgmask m (place size q) = false -> exists m', bind (fetch c size (seen m) (place size q)) (fun v => bind (fetch c size ld (place size q)) (fun d => write (shape c) size (Nat.modulo n (count c)) (place size p * k) v d (tick m))) = Some m' /\
      sound m' /\ seen m' = seen m /\ fgmask m' = fgmask m /\
      (forall s' p', in_image size p' -> same m m' s' p' \/ ((s', p') = (Nat.modulo n (count c), p) /\ drawn force (fgmask m) (seen m) ld m' s' p')) /\
      (open force (fgmask m) -> drawn force (fgmask m) (seen m) ld m' (Nat.modulo n (count c)) p)).
    { intros M. assert (D : drawn force (fgmask m) (seen m) ld m' (Nat.modulo n (count c)) p).
      { exists q. do 3 (split; auto). intros x Hx. destruct (Wh x Hx) as [-> ->]. unfold v, d. now rewrite !nth_map_zrange by auto. }
      exists m'. rewrite !(fetch_ok c size Hn Hk) by (apply inner_image; auto). split; auto. split.
      { apply Wsd; [ apply tick_sound; auto | | ]; apply Forall_map, Forall_forall; intros; [ apply Hs | apply Hd ]. }
      do 2 (split; auto). split; auto. intros s' p' Hp'. destruct (pair_dec (s', p') (Nat.modulo n (count c), p)) as [X|X]; [ injection X as -> ->; right; auto | left ]. intros x Hx. apply (Wo s' p' Hp' X x Hx). }
    destruct force.
    - apply K. auto.
    - rewrite get_in by (apply place_range, inner_image; auto). cbn [bind]. destruct (fgmask m (place size q)) eqn:M; [ | apply K; auto ].
      eexists. split; [ reflexivity | ]. split; [ apply tick_sound; auto | ]. do 2 (split; auto). split; [ intros; left; intros x Hx; split; reflexivity | ].
      intros [O|O]; [ discriminate | ]. rewrite O in M. discriminate.
  Qed.

  Lemma refresh_pixel_ok ld force p : (forall i, 0 <= ld i < 2 ^ 16) -> inner size p -> forall ns m, sound m -> exists m', iter (refresh_one c rnd size ld force (place size p)) ns m = Some m' /\
    sound m' /\ seen m' = seen m /\ fgmask m' = fgmask m /\
    (forall s' p', in_image size p' -> same m m' s' p' \/ (p' = p /\ In s' (map (fun n => Nat.modulo n (count c)) ns) /\ drawn force (fgmask m) (seen m) ld m' s' p')) /\
    (open force (fgmask m) -> forall s', In s' (map (fun n => Nat.modulo n (count c)) ns) -> drawn force (fgmask m) (seen m) ld m' s' p).
  Proof.
    intros Hd Hp. induction ns as [|n ns IH]; intros st Hs; cbn [iter map].
    - exists st. do 4 (split; auto). split; [ intros; left; apply same_refl | ]. intros _ s' [].
    - destruct (refresh_one_ok ld force p st n Hd Hs Hp) as (st1 & -> & Hs1 & E1 & M1 & A1 & B1).
      destruct (IH st1 Hs1) as (st2 & -> & Hs2 & E2 & M2 & A2 & B2). exists st2. split; auto. split; auto. split; [ congruence | ]. split; [ congruence | ].
      rewrite E1, M1 in A2, B2. split.
      + intros s' p' Hp'. destruct (A2 s' p' Hp') as [S2|(-> & I & D)]; [ | right; split; auto; split; auto; now right ].
        destruct (A1 s' p' Hp') as [S1|(E & D)]; [ left; eapply same_trans; eauto | ]. injection E as -> ->. right. split; auto. split; [ now left | ]. eapply drawn_same; eauto.
      + intros F s' [<-|I]; [ | auto ]. destruct (A2 (Nat.modulo n (count c)) p (inner_image _ _ Hp)) as [S2|(_ & _ & D)]; auto.
        eapply drawn_same; [ exact S2 | ]. auto.
  Qed.

  (* the samples whose numbers are in a window *)
  Definition window (start num : nat) : list nat := map (fun n => Nat.modulo n (count c)) (seq start num).

  Lemma refresh_ok ld force start num : (forall i, 0 <= ld i < 2 ^ 16) -> forall pts m, sound m -> Forall (inner size) pts ->
    exists m', refresh c rnd size ld force start num (map (place size) pts) m = Some m' /\ sound m' /\ seen m' = seen m /\ fgmask m' = fgmask m /\
    (forall s' p', in_image size p' -> same m m' s' p' \/
      (In p' pts /\ (force = true \/ fgmask m (place size p') = false) /\ In s' (window start num) /\ drawn force (fgmask m) (seen m) ld m' s' p')) /\
    (open force (fgmask m) -> forall s' p', In p' pts -> In s' (window start num) -> drawn force (fgmask m) (seen m) ld m' s' p').
  Proof.
    intros Hd. unfold refresh. induction pts as [|p pts IH]; intros st Hs Fp; cbn [map iter].
    - exists st. do 4 (split; auto). split; [ intros; left; apply same_refl | ]. intros _ s' p' [].
    - inversion Fp as [|? ? Hp Fp']; subst.
      assert (K : exists st1, bind (if force then Some false else get (fst size * snd size) (fgmask st) (place size p)) (fun fg : bool => if fg then Some st else iter (refresh_one c rnd size ld force (place size p)) (seq start num) st) = Some st1 /\
        sound st1 /\ seen st1 = seen st /\ fgmask st1 = fgmask st /\
        (forall s' p', in_image size p' -> same st st1 s' p' \/ (p' = p /\ (force = true \/ fgmask st (place size p) = false) /\ In s' (window start num) /\ drawn force (fgmask st) (seen st) ld st1 s' p')) /\
        (open force (fgmask st) -> forall s', In s' (window start num) -> drawn force (fgmask st) (seen st) ld st1 s' p)).
      { destruct (refresh_pixel_ok ld force p Hd Hp (seq start num) st Hs) as (st1 & E & Hs1 & E1 & M1 & A1 & B1).
        assert (force = false \/ force = true) as [->| ->] by (destruct force; auto).
        - rewrite get_in by (apply place_range, inner_image; auto). cbn [bind]. destruct (fgmask st (place size p)) eqn:M.
          + exists st. do 4 (split; auto). split; [ intros; left; apply same_refl | ]. intros [O|O]; [ discriminate | ]. rewrite O in M. discriminate.
          + exists st1. do 4 (split; auto). split; auto. intros s' p' Hp'. destruct (A1 s' p' Hp') as [S|(-> & I & D)]; [ left; exact S | right; split; auto ].
        - exists st1. do 4 (split; auto). split; auto. intros s' p' Hp'. destruct (A1 s' p' Hp') as [S|(-> & I & D)]; [ left; exact S | right; split; auto ]. }
      destruct K as (st1 & -> & Hs1 & E1 & M1 & A1 & B1).
      destruct (IH st1 Hs1 Fp') as (st2 & -> & Hs2 & E2 & M2 & A2 & B2). exists st2. split; auto. split; auto. split; [ congruence | ]. split; [ congruence | ].
      rewrite E1, M1 in A2, B2. split.
      + intros s' p' Hp'. destruct (A2 s' p' Hp') as [S2|(I & F & W & D)]; [ | right; split; [ now right | ]; auto ].
        destruct (A1 s' p' Hp') as [S1|(-> & F & W & D)]; [ left; eapply same_trans; eauto | ]. right. split; [ now left | ]. do 2 (split; auto). eapply drawn_same; eauto.
      + intros F s' p' I W. assert (Hp' : in_image size p') by (apply inner_image; rewrite Forall_forall in Fp; auto).
        destruct (A2 s' p' Hp') as [S2|(_ & _ & _ & D)]; auto. destruct I as [<-|I]; [ | auto ]. eapply drawn_same; [ exact S2 | ]. auto.
  Qed.

  Definition refreshed (frac : Q) (force : bool) (pts : list (Z * Z)) (ld : Z -> Z) (m m' : Lobster.state) : Prop := exists start,
    let num := if Qle_bool 1 frac then count c else Z.to_nat (Qfloor (frac * inject_Z (Z.of_nat (count c)))) in
    (forall s p, in_image size p -> same m m' s p \/ (In p pts /\ (force = true \/ fgmask m (place size p) = false) /\ In s (window start num) /\ drawn force (fgmask m) (seen m) ld m' s p)) /\
    (open force (fgmask m) -> forall s p, In p pts -> In s (window start num) -> drawn force (fgmask m) (seen m) ld m' s p).

  Lemma window_lt start num s : In s (window start num) -> (s < count c)%nat.
  Proof. intros H. apply in_map_iff in H. destruct H as (n & <- & _). apply Nat.mod_upper_bound. lia. Qed.
  Lemma window_all start s : (s < count c)%nat -> In s (window start (count c)).
  Proof.
    intros Hs. apply in_map_iff. exists (if Nat.leb (Nat.modulo start (count c)) s then start + (s - Nat.modulo start (count c)) else start + (s + count c - Nat.modulo start (count c)))%nat.
    pose proof (Nat.mod_upper_bound start (count c) ltac:(lia)). pose proof (Nat.div_mod start (count c) ltac:(lia)) as DM.
    destruct (Nat.leb_spec (Nat.modulo start (count c)) s).
    - split; [ | apply in_seq; lia ]. replace (start + (s - Nat.modulo start (count c)))%nat with (s + (start / count c) * count c)%nat by nia. rewrite Nat.mod_add by lia. apply Nat.mod_small; auto.
    - split; [ | apply in_seq; lia ]. replace (start + (s + count c - Nat.modulo start (count c)))%nat with (s + (start / count c + 1) * count c)%nat by nia. rewrite Nat.mod_add by lia. apply Nat.mod_small; auto.
  Qed.

  Lemma refreshModel_ok ld frac force pts m : (forall i, 0 <= ld i < 2 ^ 16) -> sound m -> Forall (inner size) pts ->
    (~ (0 < frac /\ frac <= 1)%Q /\ refreshModel c rnd size ld frac force (map (place size) pts) m = Refused) \/
    ((0 < frac /\ frac <= 1)%Q /\ exists m', refreshModel c rnd size ld frac force (map (place size) pts) m = Done m' /\ sound m' /\ seen m' = seen m /\ fgmask m' = fgmask m /\ refreshed frac force pts ld m m').
  Proof.
    intros Hd Hs L. unfold refreshModel. destruct (Qle_bool frac 0) eqn:Q0; cbn [orb].
    { left. split; auto. apply Qle_bool_iff in Q0. intros [A _]. lra. }
    destruct (Qle_bool frac 1) eqn:Q1; cbn [negb].
    2: { left. split; auto. intros [_ A]. apply Qle_bool_iff in A. congruence. }
    right. split. { apply Qle_bool_iff in Q1. split; auto. apply Qnot_le_lt. intros X. apply Qle_bool_iff in X. congruence. }
    unfold refreshed. destruct (Qle_bool 1 frac).
    - destruct (refresh_ok ld force 0 (count c) Hd pts m Hs L) as (m' & -> & A1 & A2 & A3 & A4 & A5). exists m'. do 4 (split; auto). exists 0%nat. auto.
    - destruct (refresh_ok ld force (Z.to_nat (rnd (used m) mod Z.of_nat (count c))) (Z.to_nat (Qfloor (frac * inject_Z (Z.of_nat (count c))))) Hd pts (tick m) (tick_sound _ Hs) L)
        as (m' & -> & A1 & A2 & A3 & A4 & A5). exists m'. do 4 (split; auto). exists (Z.to_nat (rnd (used m) mod Z.of_nat (count c))). split; auto.
  Qed.
End Frame.
