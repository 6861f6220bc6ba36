From Coq Require Import ZArith NArith QArith Qround List Bool Lia Lqa.
From Verif Require Import Lib.Grid Model.Bits Model.Distances Model.Sampling Model.Simd Model.Lbsp Model.RoiTable Model.Pbas Spec.Bits Spec.Simd Spec.Lbsp Proofs.Bits Proofs.Lbsp
  Proofs.Sampling Spec.RoiTable Proofs.RoiTable Spec.Vibe.
From Verif Require Spec.Subsense Proofs.Subsense.
From Verif Require Import Proofs.Vibe Proofs.Lobster.
From Verif Require Import Spec.Vibe Model.Lobster Spec.Lobster.
From Verif Require Import Model.SubsenseFrame Spec.SubsenseFrame.
Import ListNotations.
Open Scope Z_scope.

Lemma list_as_map (d : list Z) k : Z.of_nat (length d) = k -> d = map (fun ch => nth (Z.to_nat ch) d 0) (zrange 0 k).
Proof.
  intros L. apply (nth_ext _ _ 0 0).
  - rewrite map_length. unfold zrange. rewrite zseq_length. lia.
  - intros n H. rewrite <- (Nat2Z.id n) at 2. rewrite nth_map_zrange by lia. now rewrite Nat2Z.id.
Qed.

Lemma neighbour_wide r p size : 0 <= r -> inner size p ->
  exists q, getNeighborPosition_5x5 r p 2 size = Some q /\ inner size q /\ within 2 q p.
Proof.
  intros Hr [Hx Hy]. unfold getNeighborPosition_5x5, getNeighborPosition. change (Z.of_nat (length N24)) with 24.
  rewrite Z.rem_mod_nonneg by lia. pose proof (Z.mod_pos_bound r 24 ltac:(lia)) as B.
  destruct (Z.ltb_spec (r mod 24) 0); [ lia | ].
  destruct (nth_error N24 (Z.to_nat (r mod 24))) as [d|] eqn:E.
  2: { apply nth_error_None in E. change (length N24) with 24%nat in E. lia. }
  eexists. split; [ reflexivity | ]. apply nth_error_In in E.
  assert (D : Z.abs (fst d) <= 2 /\ Z.abs (snd d) <= 2).
  { cbn in E. repeat (destruct E as [<-|E]; [ cbn; lia | ]). destruct E. }
  unfold clampImageCoords, inner, within. cbn [fst snd].
  pose proof (clamp1_inner (fst p + fst d) (fst size) (fst p) 2 Hx ltac:(lia)).
  pose proof (clamp1_inner (snd p + snd d) (snd size) (snd p) 2 Hy ltac:(lia)). lia.
Qed.

Section Pixel.
  Context (c : config) (rnd : nat -> Z) (size : Z * Z) (Hrnd : forall k, 0 <= rnd k) (Hn : (0 < count c)%nat) (Hk : ch c = 1 \/ ch c = 3).
  Notation k := (ch c).
  Lemma Hc : 0 < k. Proof. destruct Hk as [-> | ->]; lia. Qed.
  Notation colour_at := (colour_at (shape c) size). Notation texture_at := (texture_at (shape c) size). Notation same := (same (shape c) size).
  Notation taken := (taken k).

  Lemma in_range p x : in_image size p -> 0 <= x < k -> 0 <= place size p * k + x < fst size * snd size * k.
  Proof. intros Hp H. apply (value_range (shape c) size Hn Hc p x Hp H). Qed.

  Lemma fetch_ok m p : in_image size p -> fetch c size m (place size p) = Some (map (fun x => m (place size p * k + x)) (zrange 0 k)).
  Proof. intros Hp. unfold fetch. apply all_map. intros x I. apply in_zrange in I. apply get_in, in_range; auto; lia. Qed.

  Definition tex (lut : Z -> Z) (img : Z -> Z) (p : Z * Z) (x : Z) : Z :=
    match texture (low c lut) (around k size img p x) (value k size img p x) with Some e => e | None => 0 end.
  Lemma tex_ok lut img p x : byte_image img -> texture (low c lut) (around k size img p x) (value k size img p x) = Some (tex lut img p x) /\
    is_descriptor (around k size img p x) (value k size img p x) (lut (value k size img p x)) (tex lut img p x).
  Proof.
    intros B. unfold tex. destruct (texture_around (low c lut) size Hn img p x (value k size img p x) B (B _)) as (e & E & D). cbn [channels low] in E.
    rewrite E. split; [ reflexivity | exact D ].
  Qed.
  Lemma tex_taken lut img p (b d : Z -> Z) : byte_image img -> (forall x, 0 <= x < k -> b x = value k size img p x /\ d x = tex lut img p x) -> taken lut size img p b d.
  Proof.
    intros B H x Hx. destruct (H x Hx) as [-> ->]. destruct (tex_ok lut img p x B) as [_ D]. split; auto. split; [ apply D | ]. apply mismatch_own; auto.
  Qed.

  Lemma describe_ok lut img p : byte_image img -> inner size p ->
    describe c lut size img (place size p) = Some (map (value k size img p) (zrange 0 k), map (around k size img p) (zrange 0 k), map (tex lut img p) (zrange 0 k)).
  Proof.
    intros B Hp. pose proof (inner_image _ _ Hp) as Ip. unfold describe. rewrite fetch_ok by auto. cbn [bind]. rewrite point_place by auto.
    rewrite (all_map _ (around k size img p)). 2: { intros x I. apply in_zrange in I. apply (lookup_around (low c lut) rnd size Hrnd Hn Hc img p x Hp). cbn [channels low]. lia. }
    cbn [bind]. change (fun x : Z => img (place size p * k + x)) with (value k size img p). rewrite combine_map, map_map. cbn [fst snd].
    rewrite (all_map _ (tex lut img p)). 2: { intros x _. apply tex_ok. auto. } reflexivity.
  Qed.

  Definition gaps_of (lut : Z -> Z) (img : Z -> Z) (p : Z * Z) (m : Lobster.state) (s : nat) : list (Z * Z) := gaps k lut size img p (colour_at m s p) (texture_at m s p).

  Lemma map_all {A B} (f : A -> option B) (g : A -> B) l : (forall x, f x = Some (g x)) -> all (map f l) = Some (map g l).
  Proof. intros H. apply all_map. auto. Qed.

  Lemma sample_distances_ok lut img p m s : byte_image img -> sound m -> inner size p ->
    sample_distances c lut size m (place size p) (map (value k size img p) (zrange 0 k), map (around k size img p) (zrange 0 k), map (tex lut img p) (zrange 0 k)) s = Some (gaps_of lut img p m s).
  Proof.
    intros B Hs Hp. pose proof (inner_image _ _ Hp) as Ip. unfold sample_distances. rewrite !fetch_ok by auto. cbn [bind fst snd].
    change (fun x : Z => col m s (place size p * k + x)) with (colour_at m s p). change (fun x : Z => dsc m s (place size p * k + x)) with (texture_at m s p).
    rewrite !combine_map, map_map. cbn [fst snd]. apply all_map. intros x I. apply in_zrange in I.
    unfold channel_distance. rewrite (L1_bytes (value k size img p x) (colour_at m s p x)) by (apply B || apply Hs). cbn [bind].
    destruct (tex_ok lut img p x B) as [_ D].
    destruct (mismatch_hdist (around k size img p x) _ _ (tex lut img p x) (texture_at m s p x) eq_refl D (proj1 (s_dsc _ Hs _ _))) as (h & -> & E1). cbn [bind].
    destruct (texture_around (low c lut) size Hn img p x (colour_at m s p x) B (s_col _ Hs _ _)) as (t & T & D2). cbn [channels low lut_of] in T, D2. rewrite T. cbn [bind].
    destruct (mismatch_hdist (around k size img p x) _ _ t (texture_at m s p x) eq_refl D2 (proj1 (s_dsc _ Hs _ _))) as (h2 & -> & E2). cbn [bind].
    unfold gap. rewrite <- E1, <- E2. reflexivity.
  Qed.

  Lemma mismatch_range vals ref thr d : length vals = 16%nat -> 0 <= mismatch vals ref thr d <= 16.
  Proof.
    intros L. unfold mismatch. split; [ apply count_nonneg | ]. etransitivity; [ apply count_le | ]. rewrite combine_length, seq_length, L. lia.
  Qed.
  Lemma gaps_range lut img p m s : byte_image img -> sound m -> Spec.Subsense.sample_ok (loop c) (gaps_of lut img p m s).
  Proof.
    intros B Hs. split.
    - unfold gaps_of, gaps. rewrite map_length. unfold zrange. rewrite zseq_length. unfold Subsense.channels, loop. cbn [Subsense.grey]. destruct Hk as [-> | ->]; reflexivity.
    - apply Forall_map, Forall_forall. intros x _. unfold Spec.Subsense.channel_ok, gap. cbn [fst snd].
      assert (V : 0 <= value k size img p x <= 255) by apply B. assert (W : 0 <= colour_at m s p x <= 255) by apply Hs.
      set (r := around k size img p x). assert (Lr : length r = 16%nat) by reflexivity.
      pose proof (mismatch_range r (value k size img p x) (lut (value k size img p x)) (texture_at m s p x) Lr).
      pose proof (mismatch_range r (colour_at m s p x) (lut (colour_at m s p x)) (texture_at m s p x) Lr).
      split; [ lia | ]. split; [ apply Z.div_pos; lia | apply Z.div_le_upper_bound; lia ].
  Qed.

  Lemma last_distance_ok img p lut lv le : byte_image img -> Forall (fun x => 0 <= x <= 255) lv -> exists x,
    last_distance c (map (value k size img p) (zrange 0 k)) (map (tex lut img p) (zrange 0 k)) lv le = Some x.
  Proof.
    intros B F. unfold last_distance.
    rewrite (all_map _ (fun x => Z.abs (snd x - fst x))).
    2: { intros [a b] I. cbn [fst snd]. apply L1_bytes. { apply in_combine_r in I. rewrite Forall_forall in F. auto. } apply in_combine_l in I. apply in_map_iff in I. destruct I as (y & <- & _). apply B. }
    cbn [bind]. rewrite (map_all _ (fun x => differing 16 (Z.to_N (snd x)) (Z.to_N (fst x)))) by (intros x; apply hdist_differing; lia). cbn [bind]. eexists. reflexivity.
  Qed.
  Lemma textured_ok e : exists b, textured c e = Some b.
  Proof. unfold textured. rewrite (map_all _ (fun d => ones 16 (Z.to_N d))) by (intros; apply popcount_ones; lia). cbn [bind]. eexists. reflexivity. Qed.

  (* ------------------------------------------------------------------ buffers of one image *)
  Lemma store1_at m p v p' x : Z.of_nat (length v) = k -> in_image size p -> in_image size p' -> 0 <= x < k ->
    (p' = p /\ store1 m (place size p * k) v (place size p' * k + x) = nth (Z.to_nat x) v 0) \/ (p' <> p /\ store1 m (place size p * k) v (place size p' * k + x) = m (place size p' * k + x)).
  Proof.
    intros L Hp Hp' H. destruct (store_at (shape c) rnd size Hrnd Hn (fun _ => m) 0 p v 0 p' x L Hp Hp' H) as [(_ & -> & E)|(N & E)]; [ left | right ]; (split; [ auto; congruence | ]);
      unfold store_list in E; cbn [Nat.eqb andb] in E; exact E.
  Qed.
  Lemma store1_range (P : Z -> Prop) m b v : P 0 -> (forall i, P (m i)) -> Forall P v -> forall i, P (store1 m b v i).
  Proof. intros P0 M F i. apply (store_range P (fun _ => m) 0 b v P0 (fun _ => M) F 0 i). Qed.

  (* ------------------------------------------------------------------ learning *)
  (* the sample holds what is at a point of a frame *)
  Definition fed (d : Z) (lut : Z -> Z) (img : Z -> Z) (q : Z * Z) (m : Lobster.state) (s : nat) (p : Z * Z) : Prop :=
    within d p q /\ taken lut size img q (colour_at m s p) (texture_at m s p).
  Lemma taken_ext lut img q b d b' d' : (forall x, 0 <= x < k -> b' x = b x /\ d' x = d x) -> taken lut size img q b d -> taken lut size img q b' d'.
  Proof. intros H T x Hx. destruct (H x Hx) as [-> ->]. auto. Qed.
  Lemma fed_same d lut img q m m' s p : same m m' s p -> fed d lut img q m s p -> fed d lut img q m' s p.
  Proof. intros S (A & T). split; auto. eapply taken_ext; [ exact S | exact T ]. Qed.

  (* what learning may do: nothing but storing the pixel q of a frame at points within d of it that satisfy P *)
  Record learned (P : Z * Z -> Prop) (d : Z) (lut : Z -> Z) (img : Z -> Z) (q : Z * Z) (m m' : Lobster.state) : Prop := {
    l_sound : sound m';
    l_seen : seen m' = seen m;
    l_mask : fgmask m' = fgmask m;
    l_fed : forall s p, in_image size p -> same m m' s p \/ ((s < count c)%nat /\ inner size p /\ P p /\ fed d lut img q m' s p) }.

  Lemma tick_learned P d lut img q m : sound m -> learned P d lut img q m (tick m).
  Proof. intros H. split; auto using tick_sound. intros. left. intros x Hx. split; reflexivity. Qed.
  Lemma learned_trans (P : Z * Z -> Prop) d lut img q a b e : learned P d lut img q a b -> learned P d lut img q b e -> learned P d lut img q a e.
  Proof.
    intros [A1 A2 A3 A4] [B1 B2 B3 B4]. split; auto; try congruence. intros s p Hp. destruct (B4 s p Hp) as [S|S]; auto.
    destruct (A4 s p Hp) as [T|(T1 & T2 & T3 & T4)]; [ left; eapply same_trans; eauto | right ]. do 3 (split; auto). eapply fed_same; eauto.
  Qed.
  Lemma learned_weaken (P Q : Z * Z -> Prop) d d' lut img q a b : (forall p, P p -> Q p) -> d <= d' -> learned P d lut img q a b -> learned Q d' lut img q a b.
  Proof.
    intros W D [A1 A2 A3 A4]. split; auto. intros s p Hp. destruct (A4 s p Hp) as [T|(T1 & T2 & T3 & T4 & T5)]; auto. right. do 3 (split; auto). split; auto. unfold within in *. lia.
  Qed.

  Lemma learn_ok lut img p q m d : byte_image img -> sound m -> inner size p -> inner size q -> within d q p ->
    exists m', learn c rnd size (place size q) (map (value k size img p) (zrange 0 k)) (map (tex lut img p) (zrange 0 k)) m = Done m' /\ learned (eq q) d lut img p m m' /\ used m' = S (used m).
  Proof.
    intros B Hs Hp Hq W. unfold learn. set (s := Z.to_nat (rnd (used m) mod Z.of_nat (count c))).
    assert (Is : (s < count c)%nat). { pose proof (Z.mod_pos_bound (rnd (used m)) (Z.of_nat (count c)) ltac:(lia)). unfold s. lia. }
    assert (L : forall f : Z -> Z, Z.of_nat (length (map f (zrange 0 k))) = k). { intros f. rewrite map_length. unfold zrange. rewrite zseq_length. pose proof Hc. lia. }
    destruct (write_ok (shape c) rnd size Hrnd Hn Hc (tick m) s q (map (value k size img p) (zrange 0 k)) (map (tex lut img p) (zrange 0 k)) (L _) (L _) (inner_image _ _ Hq)) as (m' & E & [Wh Wo Ws Wm Wu Wd]).
    change (channels (shape c)) with k in E. rewrite E. exists m'. split; [ reflexivity | ]. split; [ | exact Wu ]. split; auto.
    - apply Wd; [ apply tick_sound; auto | | ]; apply Forall_map, Forall_forall; intros x _; [ apply B | apply (tex_ok lut img p x B) ].
    - intros s' p' Hp'. destruct (pair_dec (s', p') (s, q)) as [X|X].
      + injection X as -> ->. right. split; auto. split; auto. split; auto. split; auto. apply tex_taken; auto. intros x Hx. destruct (Wh x Hx) as [-> ->]. now rewrite !nth_map_zrange by auto.
      + left. intros x Hx. apply (Wo s' p' Hp' X x Hx).
  Qed.

  Lemma lottery_ok r n : n <> 0 -> lottery r n = Done (r mod n =? 0).
  Proof. intros H. unfold lottery. destruct (Z.eqb_spec n 0); [ contradiction | reflexivity ]. Qed.

  Lemma absorb_ok lut img p m g : byte_image img -> sound m -> inner size p ->
    exists m', absorb c rnd size g (place size p) (map (value k size img p) (zrange 0 k)) (map (tex lut img p) (zrange 0 k)) m = Done m' /\ learned (eq p) 0 lut img p m m' /\ (Subsense.cooldown g = 0 -> m' = m).
  Proof.
    intros B Hs Hp. unfold absorb. destruct (Z.eqb_spec (Subsense.cooldown g) 0) as [E|N].
    - exists m. split; auto. split; auto. split; auto. intros. left. apply same_refl.
    - rewrite lottery_ok by lia. cbn [obind]. destruct (rnd (used m) mod 2 =? 0).
      + destruct (learn_ok lut img p p (tick m) 0 B (tick_sound _ Hs) Hp Hp ltac:(unfold within; lia)) as (m' & -> & L & _). exists m'. split; auto. split; [ | contradiction ].
        eapply learned_trans; [ apply tick_learned; auto | exact L ].
      + exists (tick m). split; auto. split; [ apply tick_learned; auto | contradiction ].
  Qed.

  Lemma spread_ok lut img p m g n unst raw motion : byte_image img -> sound m -> inner size p -> 1 <= n -> (1 <= Subsense.low_cap g)%Q ->
    exists m', spread c rnd size g n unst raw motion (place size p) (map (value k size img p) (zrange 0 k)) (map (tex lut img p) (zrange 0 k)) m = Done m' /\
      learned (fun _ => True) (if spread3 c && negb unst then 1 else 2) lut img p m m'.
  Proof.
    intros B Hs Hp N LC. unfold spread. rewrite lottery_ok by lia. cbn [obind]. set (d := if spread3 c && negb unst then 1 else 2).
    assert (E : exists m2, (if rnd (used m) mod n =? 0 then learn c rnd size (place size p) (map (value k size img p) (zrange 0 k)) (map (tex lut img p) (zrange 0 k)) (tick m) else Done (tick m)) = Done m2 /\ learned (fun _ => True) d lut img p m m2).
    { assert (D : 0 <= d) by (unfold d; destruct (_ && _); lia). destruct (rnd (used m) mod n =? 0).
      - destruct (learn_ok lut img p p (tick m) 0 B (tick_sound _ Hs) Hp Hp ltac:(unfold within; lia)) as (m2 & -> & L & _). exists m2. split; auto.
        eapply learned_trans; [ apply tick_learned; auto | ]. eapply learned_weaken; [ | exact D | exact L ]. auto.
      - exists (tick m). split; auto. apply tick_learned. auto. }
    destruct E as (m2 & -> & L2). cbn [obind]. rewrite (point_place size p) by (apply inner_image; auto).
    assert (Q : exists q, (if spread3 c && negb unst then getNeighborPosition_3x3 else getNeighborPosition_5x5) (rnd (used m2)) p 2 size = Some q /\ inner size q /\ within d q p).
    { unfold d. destruct (spread3 c && negb unst); [ apply neighbour_inner | apply neighbour_wide ]; auto. }
    destruct Q as (q & -> & Hq & Wq). cbn [access obind]. rewrite !get_in by (apply place_range, inner_image; auto). cbn [access obind].
    rewrite lottery_ok. 2: { destruct (spread3 c && negb unst); [ lia | ]. pose proof (Z.div_pos n 2 ltac:(lia) ltac:(lia)). lia. }
    cbn [obind]. set (b1 := _ mod _ =? 0).
    assert (E : exists b2 : bool, (if b1 then Done true else if Qltb (995 # 1000) (raw (place size q)) && Qltb (motion (place size q)) (1 # 100) then lottery (rnd (used (tick m2))) (Qfloor (Subsense.low_cap g)) else Done false) = Done b2).
    { destruct b1; [ eauto | ]. destruct (Qltb (995 # 1000) (raw (place size q)) && Qltb (motion (place size q)) (1 # 100)); [ | eauto ]. rewrite lottery_ok; [ eauto | ]. pose proof (Qfloor_resp_le 1 (Subsense.low_cap g) LC : (1 <= Qfloor (Subsense.low_cap g))%Z) as X. intros X0. rewrite X0 in X. apply (Z.lt_irrefl 0). apply Z.lt_le_trans with 1%Z; [ reflexivity | exact X ]. }
    destruct E as (b2 & ->). cbn [obind]. destruct b2.
    - destruct (learn_ok lut img p q (tick (tick m2)) d B ltac:(do 2 apply tick_sound; apply L2) Hp Hq Wq) as (m' & -> & L & _). exists m'. split; auto.
      eapply learned_trans; [ exact L2 | ]. eapply learned_trans; [ apply tick_learned; apply L2 | ]. eapply learned_trans; [ apply tick_learned, tick_sound, L2 | ]. eapply learned_weaken; [ | | exact L ]; auto; lia.
    - exists (tick (tick m2)). split; auto. eapply learned_trans; [ exact L2 | ]. eapply learned_trans; [ apply tick_learned; apply L2 | ]. apply tick_learned, tick_sound, L2.
  Qed.

  (* ------------------------------------------------------------------ one pixel *)
  Record good (st : state) : Prop := {
    g_sound : sound (mem st);
    g_ldesc : forall i, 0 <= ldesc st i < 2 ^ 16 }.
  Definition colour_seen (st : state) (p : Z * Z) (x : Z) : Z := seen (mem st) (place size p * k + x).
  Definition texture_seen (st : state) (p : Z * Z) (x : Z) : Z := ldesc st (place size p * k + x).
  Definition dummy (smp : list Subsense.sample) : Subsense.input := {| Subsense.samples := smp; Subsense.final := false; Subsense.dilated := false; Subsense.diff_ratio := 0%Q |}.

  Record effect (img : Z -> Z) (al as_ : Q) (p : Z * Z) (st : state) (fg : bool) (st' : state) : Prop := {
    e_good : good st';
    e_step : exists p1, Subsense.pixel_step (loop c) (glob st) al as_ (dummy (map (gaps_of (lut st) img p (mem st)) (seq 0 (count c)))) (px st (place size p)) = Subsense.Done (fg, p1) /\
      px st' = set1 (px st) (place size p) p1 /\
      (forall s' p', in_image size p' -> same (mem st) (mem st') s' p' \/
        ((s' < count c)%nat /\ inner size p' /\ (fg = false \/ (Subsense.cooldown (glob st) <> 0 /\ p' = p)) /\
         fed (if spread3 c && negb (Subsense.unstable p1) then 1 else 2) (lut st) img p (mem st') s' p'));
    e_here : taken (lut st) size img p (colour_seen st' p) (texture_seen st' p);
    e_there : forall p' x, in_image size p' -> p' <> p -> 0 <= x < k -> colour_seen st' p' x = colour_seen st p' x /\ texture_seen st' p' x = texture_seen st p' x;
    e_rest : glob st' = glob st /\ lut st' = lut st /\ nz st' = nz st /\ fgmask (mem st') = fgmask (mem st);
    e_kept : fg = true -> Subsense.cooldown (glob st) = 0 -> col (mem st') = col (mem st) /\ dsc (mem st') = dsc (mem st) /\ used (mem st') = used (mem st) }.

  Lemma rate_of_pos ov t : (1 <= t)%Q -> 1 <= rate_of ov t.
  Proof.
    intros H. unfold rate_of. destruct (Z.ltb_spec 0 ov); [ lia | ]. pose proof (Qle_ceiling t) as X. assert (Y : (inject_Z 1 <= inject_Z (Qceiling t))%Q) by (change (inject_Z 1) with 1%Q; lra).
    rewrite <- Zle_Qle in Y. auto.
  Qed.

  Lemma apply_pixel_ok ov img al as_ p st : byte_image img -> good st -> inner size p -> (1 <= Subsense.low_cap (glob st))%Q -> (1 <= Subsense.rate (px st (place size p)))%Q ->
    (exists f, Subsense.pixel_step (loop c) (glob st) al as_ (dummy (map (gaps_of (lut st) img p (mem st)) (seq 0 (count c)))) (px st (place size p)) = Subsense.Fault f /\
       apply_pixel c rnd ov size img al as_ st (place size p) = Fault (Loop f)) \/
    exists fg b st', apply_pixel c rnd ov size img al as_ st (place size p) = Done ((fg, b), st') /\ effect img al as_ p st fg st'.
  Proof.
    intros B [Gs Gd] Hp LC Rt. pose proof (inner_image _ _ Hp) as Ip. unfold apply_pixel. rewrite describe_ok by auto. cbn [access obind fst snd].
    rewrite (map_all _ (gaps_of (lut st) img p (mem st))) by (intros s; apply sample_distances_ok; auto). cbn [access obind].
    rewrite !fetch_ok by auto. cbn [access obind].
    destruct (last_distance_ok img p (lut st) (map (fun x => seen (mem st) (place size p * k + x)) (zrange 0 k)) (map (fun x => ldesc st (place size p * k + x)) (zrange 0 k)) B) as (x & ->).
    { apply Forall_map, Forall_forall. intros x _. apply Gs. }
    cbn [access obind]. fold (dummy (map (gaps_of (lut st) img p (mem st)) (seq 0 (count c)))).
    destruct (Subsense.pixel_step (loop c) (glob st) al as_ _ (px st (place size p))) as [[fg p1]|f] eqn:PS; [ right | left; exists f; auto ].
    cbn [feedback obind fst snd]. set (v := map (value k size img p) (zrange 0 k)). set (e := map (tex (lut st) img p) (zrange 0 k)).
    assert (E : exists m, (if fg then absorb c rnd size (glob st) (place size p) v e (mem st)
         else spread c rnd size (glob st) (rate_of ov (Subsense.rate (px st (place size p)))) (Subsense.unstable p1) (fun j => Subsense.raw_st (set1 (px st) (place size p) p1 j)) (set1 (moved st) (place size p) (Subsense.roll (moved st (place size p)) as_ x)) (place size p) v e (mem st)) = Done m /\
       learned (fun p' => fg = false \/ (Subsense.cooldown (glob st) <> 0 /\ p' = p)) (if spread3 c && negb (Subsense.unstable p1) then 1 else 2) (lut st) img p (mem st) m /\ (fg = true -> Subsense.cooldown (glob st) = 0 -> m = mem st)).
    { destruct fg.
      - destruct (absorb_ok (lut st) img p (mem st) (glob st) B Gs Hp) as (m & Em & L & K). exists m. split; [ exact Em | ]. split; auto. destruct (Z.eq_dec (Subsense.cooldown (glob st)) 0) as [Z0|NZ].
        + rewrite (K Z0). split; auto. intros. left. apply same_refl.
        + eapply learned_weaken; [ | | exact L ]; [ intros p' <-; auto | destruct (_ && _); lia ].
      - destruct (spread_ok (lut st) img p (mem st) (glob st) (rate_of ov (Subsense.rate (px st (place size p)))) (Subsense.unstable p1) (fun j => Subsense.raw_st (set1 (px st) (place size p) p1 j)) (set1 (moved st) (place size p) (Subsense.roll (moved st (place size p)) as_ x)) B Gs Hp (rate_of_pos _ _ Rt) LC) as (m & Em & L).
        exists m. split; [ exact Em | ]. split; [ | discriminate ]. eapply learned_weaken; [ | | exact L ]; auto. lia. }
    destruct E as (m & -> & [L1 L2 L3 L4] & Km). cbn [obind]. destruct (textured_ok e) as (b & ->). cbn [access obind].
    assert (Lv : Z.of_nat (length v) = k) by (unfold v; rewrite map_length; unfold zrange; rewrite zseq_length; pose proof Hc; lia).
    assert (Le : Z.of_nat (length e) = k) by (unfold e; rewrite map_length; unfold zrange; rewrite zseq_length; pose proof Hc; lia).
    exists fg, b. eexists. split; [ reflexivity | ]. split; cbn [mem ldesc px moved glob lut nz fgmask]; auto.
    - split; cbn [mem ldesc].
      + destruct L1 as [A1 A2 A3]. split; cbn [col dsc seen]; auto. intros i. apply (store1_range (fun x => 0 <= x <= 255)); auto; [ lia | ]. apply Forall_map, Forall_forall. intros y _. apply B.
      + intros i. apply (store1_range (fun x => 0 <= x < 2 ^ 16)); auto; [ lia | ]. apply Forall_map, Forall_forall. intros y _. apply (tex_ok (lut st) img p y B).
    - exists p1. split; [ exact PS | ]. split; [ reflexivity | ]. exact L4.
    - apply tex_taken; auto. intros y Hy. unfold colour_seen, texture_seen. cbn [mem seen ldesc].
      destruct (store1_at (seen m) p v p y Lv Ip Ip Hy) as [(_ & ->)|(N & _)]; [ | congruence ]. destruct (store1_at (ldesc st) p e p y Le Ip Ip Hy) as [(_ & ->)|(N & _)]; [ | congruence ].
      unfold v, e. now rewrite !nth_map_zrange by auto.
    - intros p' y Hp' N Hy. unfold colour_seen, texture_seen. cbn [mem seen ldesc].
      destruct (store1_at (seen m) p v p' y Lv Ip Hp' Hy) as [(-> & _)|(_ & ->)]; [ congruence | ]. destruct (store1_at (ldesc st) p e p' y Le Ip Hp' Hy) as [(-> & _)|(_ & ->)]; [ congruence | ].
      rewrite L2. auto.
    - intros F C0. rewrite (Km F C0). auto.
  Qed.
End Pixel.
