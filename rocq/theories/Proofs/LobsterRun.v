From Coq Require Import ZArith NArith QArith Qround List Bool Lia Lqa.
From Verif Require Import Lib.Grid Model.Bits Model.Distances Model.Sampling Model.Lbsp Model.RoiTable Spec.Lbsp Spec.RoiTable Proofs.RoiTable
  Spec.Vibe Spec.Subsense Proofs.Subsense Proofs.Lobster.
From Verif Require Import Spec.Vibe Model.Lobster Spec.Lobster.
Import ListNotations.
Open Scope Z_scope.

Section Run.
  Context (c : config) (rnd : nat -> Z) (size : Z * Z) (Hrnd : forall k, 0 <= rnd k) (Hn : (0 < samples c)%nat) (Hk : channels c = 1 \/ channels c = 3).
  Notation k := (channels c).
  Lemma Hc : 0 < k. Proof. destruct Hk as [-> | ->]; lia. Qed.
  Notation colour_at := (colour_at c size). Notation texture_at := (texture_at c size). Notation same := (same c size).
  Notation masked := (masked (channels c) size). Notation uniform := (uniform (channels c) size).
  Notation fed := (fed c size). Notation effect := (effect c size). Notation resembles := (resembles c size).

  Definition listed (pxs : list Z) : Prop := forall i, In i pxs -> exists p, inner size p /\ i = place size p.

  (* what a frame does *)
  Record framed (img : Z -> Z) (st : state) (m : list (Z * bool)) (st' : state) : Prop := {
    f_sound : sound st';
    f_seen : seen st' = seen st;
    f_fed : forall s p, in_image size p -> same st st' s p \/ (exists q, inner size q /\ In (place size q, false) m /\ (s < samples c)%nat /\ inner size p /\ fed img q st' s p);
    f_kept : (forall i b, In (i, b) m -> b = true) -> st' = st }.

  Lemma apply_pixels_ok rate img : byte_image img -> forall pxs st, sound st -> listed pxs ->
    exists m st', apply_pixels c rnd rate size img pxs st = Some (m, st') /\ map fst m = pxs /\ framed img st m st'.
  Proof.
    intros B. induction pxs as [|i pxs IH]; intros st Hs L; cbn [apply_pixels].
    - exists [], st. split; auto. split; auto. split; auto. intros. left. apply same_refl.
    - destruct (L i (or_introl eq_refl)) as (p & Hp & ->).
      destruct (apply_pixel_ok c rnd size Hrnd Hn Hc Hk rate img p st B Hs Hp) as (fg & st1 & -> & [E1 E2 E3 E4 E5]). cbn [bind fst snd].
      destruct (IH st1 E1 ltac:(intros j J; apply L; now right)) as (m & st2 & -> & M & [F1 F2 F3 F4]). cbn [bind fst snd].
      exists ((place size p, fg) :: m), st2. split; auto. split; [ cbn; congruence | ]. split; auto.
      + congruence.
      + intros s p' Hp'. destruct (F3 s p' Hp') as [S|(q & A & A' & A'' & A3 & A4)].
        2: { right. exists q. split; auto. split; [ now right | ]. auto. }
        destruct (E5 s p' Hp') as [S'|(-> & A & A' & A'')]; [ left; eapply same_trans; eauto | ].
        right. exists p. split; auto. split; [ now left | ]. split; auto. split; auto. eapply fed_same; eauto.
      + intros H. assert (fg = true) by (apply (H (place size p)); now left). rewrite F4; [ auto | ]. intros j b J. apply (H j). now right.
  Qed.

  Lemma apply_pixels_app rate img : forall l1 l2 st m st', apply_pixels c rnd rate size img (l1 ++ l2) st = Some (m, st') ->
    exists m1 m2 st1, apply_pixels c rnd rate size img l1 st = Some (m1, st1) /\ apply_pixels c rnd rate size img l2 st1 = Some (m2, st') /\ m = m1 ++ m2.
  Proof.
    induction l1 as [|i l1 IH]; intros l2 st m st'; cbn [app apply_pixels].
    - intros E. exists [], m, st. auto.
    - destruct (apply_pixel c rnd rate size img st i) as [[fg sa]|]; cbn [bind fst snd]; [ | discriminate ].
      destruct (apply_pixels c rnd rate size img (l1 ++ l2) sa) as [[mb sb]|] eqn:E; cbn [bind fst snd]; [ | discriminate ]. intros X. injection X as <- <-.
      destruct (IH _ _ _ _ E) as (m1 & m2 & s1 & -> & E2 & ->). cbn [bind fst snd]. exists ((i, fg) :: m1), m2, s1. auto.
  Qed.

  Lemma pixel_decision rate img pre p post st m st' : byte_image img -> sound st -> listed (pre ++ place size p :: post) -> in_image size p ->
    apply_pixels c rnd rate size img (pre ++ place size p :: post) st = Some (m, st') ->
    exists m1 st1 fg m2, apply_pixels c rnd rate size img pre st = Some (m1, st1) /\ m = m1 ++ (place size p, fg) :: m2 /\ map fst m1 = pre /\ map fst m2 = post /\ framed img st m1 st1 /\
      (fg = false <-> at_least (required c) (resembles img p st1) (seq 0 (samples c))).
  Proof.
    intros B Hs L Hp E. destruct (apply_pixels_app _ _ _ _ _ _ _ E) as (m1 & m2 & st1 & E1 & E2 & ->).
    destruct (apply_pixels_ok rate img B pre st Hs ltac:(intros j J; apply L, in_or_app; now left)) as (m1' & st1' & E1' & M1 & F1).
    rewrite E1 in E1'. injection E1' as <- <-. cbn [apply_pixels] in E2.
    assert (Ip : inner size p). { destruct (L (place size p) ltac:(apply in_or_app; right; now left)) as (p' & Hp' & X). apply place_inj in X; auto using inner_image. subst; auto. }
    destruct (apply_pixel_ok c rnd size Hrnd Hn Hc Hk rate img p st1 B (f_sound _ _ _ _ F1) Ip) as (fg & st2 & X & [X1 X2 X3 X4 X5]). rewrite X in E2. cbn [bind fst snd] in E2.
    destruct (apply_pixels_ok rate img B post st2 X1 ltac:(intros j J; apply L, in_or_app; right; now right)) as (m3 & st3 & E3 & M3 & F3). rewrite E3 in E2. cbn [bind fst snd] in E2.
    injection E2 as <- <-. exists m1, st1, fg, m3. auto 10.
  Qed.

  Lemma apply_ok rate pxs img st : byte_image img -> sound st -> listed pxs ->
    (rate <= 0 /\ apply c rnd rate size pxs img st = Refused) \/
    (0 < rate /\ exists m st1, apply_pixels c rnd rate size img pxs st = Some (m, st1) /\ map fst m = pxs /\ framed img st m st1 /\
      apply c rnd rate size pxs img st = Done (m, {| col := col st1; dsc := dsc st1; seen := img; fgmask := blur c m; used := used st1 |})).
  Proof.
    intros B Hs L. unfold apply. destruct (Z.leb_spec rate 0); [ left; auto | right; split; auto ].
    destruct (apply_pixels_ok rate img B pxs st Hs L) as (m & st1 & E & M & F). rewrite E. cbn [bind finish fst snd]. exists m, st1. auto.
  Qed.

  (* ------------------------------------------------------------------ refresh *)

  Definition refreshed (frac : Q) (force : bool) (pxs : list Z) (st st' : state) : Prop := exists start,
    let num := if Qle_bool 1 frac then samples c else Z.to_nat (Qfloor (frac * inject_Z (Z.of_nat (samples c)))) in
    (forall s p, in_image size p -> same st st' s p \/ (In (place size p) pxs /\ (force = true \/ fgmask st (place size p) = false) /\ In s (window c start num) /\ drawn c size force (fgmask st) (seen st) st' s p)) /\
    (force = true -> forall s p, in_image size p -> In (place size p) pxs -> In s (window c start num) -> drawn c size force (fgmask st) (seen st) st' s p).

  Lemma window_all s : (s < samples c)%nat -> In s (window c 0 (samples c)).
  Proof. intros H. apply in_map_iff. exists s. split; [ apply Nat.mod_small; auto | apply in_seq; lia ]. Qed.
  Lemma window_lt start num s : In s (window c start num) -> (s < samples c)%nat.
  Proof. intros H. apply in_map_iff in H. destruct H as (n & <- & _). apply Nat.mod_upper_bound. lia. Qed.

  Lemma refreshModel_ok frac force pxs st : sound st -> listed pxs ->
    (~ (0 < frac /\ frac <= 1)%Q /\ refreshModel c rnd size frac force pxs st = Refused) \/
    ((0 < frac /\ frac <= 1)%Q /\ exists st', refreshModel c rnd size frac force pxs st = Done st' /\ sound st' /\ seen st' = seen st /\ fgmask st' = fgmask st /\ refreshed frac force pxs st st').
  Proof.
    intros Hs L. unfold refreshModel. destruct (Qle_bool frac 0) eqn:Q0; cbn [orb].
    { left. split; auto. apply Qle_bool_iff in Q0. intros [A _]. lra. }
    destruct (Qle_bool frac 1) eqn:Q1; cbn [negb].
    2: { left. split; auto. intros [_ A]. apply Qle_bool_iff in A. congruence. }
    right. split. { apply Qle_bool_iff in Q1. split; auto. apply Qnot_le_lt. intros X. apply Qle_bool_iff in X. congruence. }
    unfold refreshed. destruct (Qle_bool 1 frac).
    - destruct (refresh_ok c rnd size Hrnd Hn Hc force 0 (samples c) pxs st Hs L) as (st' & -> & A1 & A2 & A3 & A4 & A5). exists st'. do 4 (split; auto). exists 0%nat. auto.
    - destruct (refresh_ok c rnd size Hrnd Hn Hc force (Z.to_nat (rnd (used st) mod Z.of_nat (samples c))) (Z.to_nat (Qfloor (frac * inject_Z (Z.of_nat (samples c))))) pxs (tick st) (tick_sound _ Hs) L)
        as (st' & -> & A1 & A2 & A3 & A4 & A5). exists st'. do 4 (split; auto). exists (Z.to_nat (rnd (used st) mod Z.of_nat (samples c))). split; auto.
  Qed.

  (* ------------------------------------------------------------------ histories *)

  Definition stems (P : (Z -> Z) -> Prop) (st : state) (s : nat) (p : Z * Z) : Prop :=
    exists im q, P im /\ inner size q /\ within 3 p q /\ taken k (lut_of c) size im q (colour_at st s p) (texture_at st s p).
  Record past (P : (Z -> Z) -> Prop) (pxs : list Z) (st : state) : Prop := {
    p_sound : sound st;
    p_seen : P (seen st);
    p_stems : forall s p, (s < samples c)%nat -> in_image size p -> In (place size p) pxs -> stems P st s p }.

  Lemma stems_same P st st' s p : same st st' s p -> stems P st s p -> stems P st' s p.
  Proof. intros S (im & q & A1 & A2 & A3 & A4). exists im, q. split; auto. split; auto. split; auto. eapply taken_ext; eauto. Qed.
  Lemma stems_weaken (P Q : (Z -> Z) -> Prop) st s p : (forall im, P im -> Q im) -> stems P st s p -> stems Q st s p.
  Proof. intros W (im & q & A1 & A2). exists im, q. auto. Qed.
  Lemma framed_stems (P : (Z -> Z) -> Prop) img st m st' s p : P img -> framed img st m st' -> in_image size p -> stems P st s p -> stems P st' s p.
  Proof.
    intros Hi [F1 F2 F3 F4] Hp S. destruct (F3 s p Hp) as [X|(q & A1 & A2 & A3 & A4 & A5 & A6)]; [ eapply stems_same; eauto | ].
    exists img, q. split; auto. split; auto. split; auto. unfold within in *. lia.
  Qed.

  Lemma act_past (P : (Z -> Z) -> Prop) pxs e st : listed pxs -> past P pxs st -> bytes_only [e] ->
    (forall im, In im (frames [e]) -> P im) ->
    act c rnd size pxs e st = Refused \/ (exists st', act c rnd size pxs e st = Done st' /\ past P pxs st').
  Proof.
    intros L [P1 P2 P3] B F. destruct e as [img rate|frac force]; cbn [act].
    - inversion B as [|? ? Bi _]; subst. destruct (apply_ok rate pxs img st Bi P1 L) as [(_ & ->)|(R & m & st1 & E & M & Fr & ->)]; [ left; auto | right ].
      assert (Pi : P img). { apply F. cbn [frames flat_map]. rewrite (proj2 (Z.ltb_lt _ _) R). now left. }
      eexists. split; [ reflexivity | ]. split; cbn [snd]; auto.
      + destruct (f_sound _ _ _ _ Fr) as [A1 A2 A3]. split; cbn [col dsc seen]; auto.
      + intros s p Hs Hp I. eapply (framed_stems P img st m st1 s p); auto.
    - destruct (refreshModel_ok frac force pxs st P1 L) as [(_ & ->)|(_ & st' & -> & A1 & A2 & A3 & start & A4 & _)]; [ left; auto | right ].
      exists st'. split; auto. split; auto.
      + rewrite A2. auto.
      + intros s p Hs Hp I. destruct (A4 s p Hp) as [X|(_ & _ & _ & q & X1 & X2 & X3 & X4)]; [ eapply stems_same; eauto | ]. exists (seen st), q. auto.
  Qed.

  Lemma play_past (P : (Z -> Z) -> Prop) pxs : listed pxs -> forall l st, past P pxs st -> bytes_only l -> (forall im, In im (frames l) -> P im) ->
    exists st', play c rnd size pxs l st = Some st' /\ past P pxs st'.
  Proof.
    intros L. induction l as [|e l IH]; intros st Ps B F; cbn [play].
    - exists st. auto.
    - inversion B as [|? ? Be Bl]; subst. assert (F' : forall im, In im (frames l) -> P im). { intros im I. apply F. unfold frames in *. cbn [flat_map]. apply in_or_app. now right. }
      destruct (act_past P pxs e st L Ps) as [->|(st' & -> & Ps')]; auto.
      + constructor; auto.
      + intros im I. apply F. unfold frames in *. cbn [flat_map] in *. rewrite app_nil_r in I. apply in_or_app. now left.
  Qed.

  (* ------------------------------------------------------------------ initialization *)

  Lemma last_bytes m img : byte_image img -> Forall (fun x => 0 <= x <= 255) (last (tables_of m k img)).
  Proof.
    intros B. rewrite tables_all. cbn [last]. apply Forall_flat_map, Forall_forall. intros i _. unfold shown. apply Forall_map, Forall_forall. intros ch _. destruct (nz m i); [ apply B | lia ].
  Qed.

  Lemma initialize_ok cur given img : byte_image img ->
    initialize c rnd cur given size img = Refused \/
    exists roi st, initialize_roi 2 cur given (snd size) (fst size) = Some roi /\ initialize c rnd cur given size img = Done (lut (tables_of roi k img), st) /\
      listed (lut (tables_of roi k img)) /\ masked (lut (tables_of roi k img)) img (seen st) /\ past (eq (seen st)) (lut (tables_of roi k img)) st.
  Proof.
    intros B. unfold initialize. destruct (initialize_roi 2 cur given (snd size) (fst size)) as [roi|] eqn:ER; [ right | left; auto ].
    destruct (away_all 2 cur given _ _ roi ltac:(lia) ER) as (R & Cc & Nz & A). destruct (nonzero_pos roi Nz) as (y0 & x0 & I0 & _). rewrite R, Cc in I0. unfold inside in I0. cbn [fst snd] in I0. set (pxs := lut (tables_of roi k img)).
    assert (L : listed pxs).
    { intros i I. unfold pxs in I. apply lut_in in I. destruct I as (Ii & D). unfold data in D. rewrite Cc in *. rewrite R in *.
      assert (W : 0 < fst size) by lia. pose proof (Z.mod_pos_bound i (fst size) W) as X. pose proof (Z.div_mod i (fst size) ltac:(lia)) as Y.
      assert (Zi : 0 <= i / fst size < snd size) by (split; [ apply Z.div_pos; lia | apply Z.div_lt_upper_bound; nia ]).
      exists (i mod fst size, i / fst size). split; [ | unfold place; cbn [fst snd]; lia ].
      specialize (A (i / fst size) (i mod fst size) ltac:(split; cbn [fst snd]; lia) D). unfold away, inner in *. cbn [fst snd] in *. lia. }
    set (st0 := {| col := fun _ _ => 0; dsc := fun _ _ => 0; seen := fun i => nth (Z.to_nat i) (last (tables_of roi k img)) 0; fgmask := fun _ => false; used := 0 |}).
    assert (S0 : sound st0).
    { split; cbn [col dsc seen st0]; try (intros; lia). intros i. destruct (Nat.lt_ge_cases (Z.to_nat i) (length (last (tables_of roi k img)))).
      - pose proof (last_bytes roi img B) as F. rewrite Forall_forall in F. apply F, nth_In. auto.
      - rewrite nth_overflow by auto. lia. }
    assert (M0 : masked pxs img (seen st0)).
    { intros p ch Hp Hch. pose proof (place_range size p Hp) as Rg. unfold value. cbn [seen st0]. fold (place size p).
      rewrite last_ok by (rewrite ?R, ?Cc; lia || lia). unfold pxs. split.
      - intros I. apply lut_in in I. destruct I as (_ & D). apply Z.eqb_neq in D. rewrite D. reflexivity.
      - intros N. destruct (Z.eqb_spec (data roi (place size p)) 0) as [E|E]; auto. exfalso. apply N, lut_in. rewrite R, Cc. split; auto. lia. }
    destruct (refreshModel_ok 1 true pxs st0 S0 L) as [(X & _)|(_ & st & -> & A1 & A2 & A3 & start & A4 & A5)].
    { exfalso. apply X. split; lra. }
    exists roi, st. split; auto. split; auto. split; auto. rewrite A2. split; auto. split; auto.
    intros s p Hs Hp I. destruct (A5 eq_refl s p Hp I) as (q & X1 & X2 & X3 & X4).
    - replace (Qle_bool 1 1) with true by reflexivity. apply in_map_iff. unfold window.
      exists (if Nat.leb (Nat.modulo start (samples c)) s then start + (s - Nat.modulo start (samples c)) else start + (s + samples c - Nat.modulo start (samples c)))%nat.
      pose proof (Nat.mod_upper_bound start (samples c) ltac:(lia)). pose proof (Nat.div_mod start (samples c) ltac:(lia)) as DM.
      destruct (Nat.leb_spec (Nat.modulo start (samples c)) s).
      + split; [ | apply in_seq; lia ]. replace (start + (s - Nat.modulo start (samples c)))%nat with (s + (start / samples c) * samples c)%nat by nia. rewrite Nat.mod_add by lia. apply Nat.mod_small; auto.
      + split; [ | apply in_seq; lia ]. replace (start + (s + samples c - Nat.modulo start (samples c)))%nat with (s + (start / samples c + 1) * samples c)%nat by nia. rewrite Nat.mod_add by lia. apply Nat.mod_small; auto.
    - exists (seen st0), q. auto.
  Qed.

  (* ------------------------------------------------------------------ uniform scenes *)

  Lemma pattern_near : forall o, In o pattern -> Z.abs (fst o) <= 2 /\ Z.abs (snd o) <= 2.
  Proof. apply Forall_forall. unfold pattern. repeat (apply Forall_cons; [ cbn; lia | ]). apply Forall_nil. Qed.
  Lemma around_uniform im q ch v : (forall p, in_image size p -> within 2 q p -> value k size im p ch = v) -> inner size q -> around k size im q ch = map (fun _ => v) pattern.
  Proof.
    intros H Hq. apply map_ext_in. intros o I. destruct (pattern_near o I) as [A B]. apply H; unfold in_image, inner, within in *; cbn [fst snd]; lia.
  Qed.

  Lemma uniform_resembles tint pxs im0 img p st s : 0 <= colour_threshold c -> 0 <= texture_threshold c -> masked pxs img im0 -> uniform tint img ->
    inner size p -> (forall q, in_image size q -> within 5 p q -> In (place size q) pxs) ->
    stems (fun im => im = im0 \/ uniform tint im) st s p -> forall im, uniform tint im -> resembles im p st s.
  Proof.
    intros Tc Tt M U Hp N (src & q & Hsrc & Hq & Wq & T) im Ui.
    assert (V : forall r ch, in_image size r -> within 2 q r -> 0 <= ch < k -> value k size src r ch = tint ch).
    { intros r ch Hr Wr Hch. destruct Hsrc as [->|Hs]; [ | apply Hs; auto ]. destruct (M r ch Hr Hch) as [M1 _]. rewrite M1; [ apply U; auto | ].
      apply N; auto. unfold within in *. lia. }
    assert (K : forall ch, 0 <= ch < k -> Z.abs (value k size im p ch - colour_at st s p ch) = 0 /\
      mismatch (around k size im p ch) (colour_at st s p ch) (lut_of c (colour_at st s p ch)) (texture_at st s p ch) = 0).
    { intros ch Hch. destruct (T ch Hch) as (Tb & _ & Tm). rewrite (around_uniform src q ch (tint ch)) in Tm by auto.
      rewrite (around_uniform im p ch (tint ch)) by auto. split; auto. rewrite Tb. rewrite (V q ch), (Ui p ch); auto using inner_image; [ lia | unfold within; lia ]. }
    assert (D3 : 0 <= colour_threshold c * 3 / 2 /\ 0 <= texture_threshold c * 3 / 2 /\ 0 <= colour_threshold c / 2) by (repeat split; apply Z.div_pos; lia).
    unfold Lobster.resembles, similar. destruct Hk as [E|E]; (destruct (Z.eqb_spec k 1); try lia).
    - destruct (K 0 ltac:(lia)) as [-> ->]. lia.
    - destruct (K 0 ltac:(lia)) as [K0 L0], (K 1 ltac:(lia)) as [K1 L1], (K 2 ltac:(lia)) as [K2 L2]. split.
      + intros ch Hch. destruct (K ch ltac:(lia)) as [-> ->]. lia.
      + rewrite K0, K1, K2, L0, L1, L2. lia.
  Qed.

  Lemma all_at_least {A} (P : A -> Prop) l n : (forall x, In x l -> P x) -> (n <= length l)%nat -> at_least n P l.
  Proof.
    intros H N. apply (at_least_filter (fun _ => true) P l n). { intros x I. split; auto. } rewrite filter_all; auto.
  Qed.

  Lemma static cur given img pxs st0 tint l st rate im : byte_image img -> (required c <= samples c)%nat -> 0 <= colour_threshold c -> 0 <= texture_threshold c ->
    initialize c rnd cur given size img = Done (pxs, st0) -> uniform tint img -> bytes_only l -> (forall im, In im (frames l) -> uniform tint im) ->
    play c rnd size pxs l st0 = Some st -> 0 < rate -> byte_image im -> uniform tint im ->
    exists m st', apply c rnd rate size pxs im st = Done (m, st') /\ map fst m = pxs /\
      forall p b, in_image size p -> (forall q, in_image size q -> within 5 p q -> In (place size q) pxs) -> In (place size p, b) m -> b = false.
  Proof.
    intros B Rq Tc Tt E U Bl Fl Pl R Bi Ui. destruct (initialize_ok cur given img B) as [X|(roi & st0' & _ & X & L & M & Pa)]; rewrite X in E; [ discriminate | ]. injection E as <- <-.
    set (pxs := lut (tables_of roi k img)) in *. set (P := fun im' => im' = seen st0' \/ uniform tint im').
    assert (Pa' : past P pxs st0'). { destruct Pa as [A1 A2 A3]. split; auto. { left. auto. } intros s p Hs Hp I. eapply stems_weaken; [ | apply A3; auto ]. intros i <-. left. auto. }
    destruct (play_past P pxs L l st0' Pa' Bl ltac:(intros; right; auto)) as (st' & E' & [P1 P2 P3]). rewrite Pl in E'. injection E' as <-.
    destruct (apply_ok rate pxs im st Bi P1 L) as [(Y & _)|(_ & m & st1 & EA & Mm & Fr & ->)]; [ lia | ].
    eexists m, _. split; [ reflexivity | ]. split; auto. intros p b Hp N I.
    apply in_split in I. destruct I as (m1 & m2 & Em). pose proof EA as EA'. rewrite <- Mm in EA'. rewrite Em in EA' at 1. rewrite map_app in EA'. cbn [map fst] in EA'.
    assert (L' : listed (map fst m1 ++ place size p :: map fst m2)). { rewrite <- Mm, Em, map_app in L. exact L. }
    destruct (pixel_decision rate im _ p _ st m st1 Bi P1 L' Hp EA') as (m1' & sta & fg & m2' & E1 & E2 & E3 & E4 & F1 & D).
    assert (m1' = m1 /\ fg = b).
    { rewrite Em in E2. assert (G : forall (a a' : list (Z * bool)) x y r r', map fst a = map fst a' -> a ++ x :: r = a' ++ y :: r' -> a = a' /\ x = y).
      { clear. induction a as [|u a IH]; intros [|u' a'] x y r r' H E; cbn in *; try discriminate; [ injection E; auto | ]. injection H as _ H. injection E as -> E. destruct (IH _ _ _ _ _ H E); subst; auto. }
      destruct (G m1' m1 _ _ _ _ E3 (eq_sym E2)) as [G1 G2]. injection G2; auto. }
    destruct H as [-> ->]. apply D. apply all_at_least; [ | rewrite seq_length; auto ].
    intros s Is. apply in_seq in Is.
    assert (Hl : In (place size p) pxs) by (apply N; auto; unfold within; lia).
    assert (Ip : inner size p). { destruct (L _ Hl) as (p' & Hp' & X'). apply place_inj in X'; auto using inner_image. subst; auto. }
    eapply (uniform_resembles tint pxs (seen st0') img p sta s); eauto.
    apply (framed_stems P im st m1 sta s p); auto. { right. auto. } apply P3; auto. lia.
  Qed.
End Run.

(* ------------------------------------------------------------------ background image *)
From Verif Require Import Proofs.Lbsp.
Lemma mean_between (f : nat -> Z) n lo hi : (forall s, lo <= f s <= hi) -> forall l a, (fold_left (fun a s => a + inject_Z (f s) / inject_Z (Z.of_nat (S n))) l a)%Q == (a + inject_Z (fold_right (fun s z => f s + z)%Z 0%Z l) / inject_Z (Z.of_nat (S n)))%Q.
Proof.
  intros H. assert (N : ~ (inject_Z (Z.of_nat (S n)) == 0)%Q). { intros X. unfold Qeq in X. cbn [Qnum Qden inject_Z] in X. lia. }
  induction l as [|s l IH]; intros a; cbn [fold_left fold_right].
  - change (inject_Z 0) with 0%Q. field. auto.
  - rewrite IH, inject_Z_plus. field. auto.
Qed.
Lemma sum_between (f : nat -> Z) lo hi : forall l, (forall s, In s l -> lo <= f s <= hi) -> lo * Z.of_nat (length l) <= fold_right (fun s z => f s + z) 0 l <= hi * Z.of_nat (length l).
Proof.
  induction l as [|s l IH]; intros H; cbn [fold_right length]; [ lia | ]. specialize (IH ltac:(intros; apply H; now right)). specialize (H s (or_introl eq_refl)). lia.
Qed.
Lemma background_between c st i lo hi : (0 < samples c)%nat -> 0 <= lo -> hi <= 255 -> (forall s, (s < samples c)%nat -> lo <= col st s i <= hi) -> lo <= background c st i <= hi.
Proof.
  intros Hn L Hh H. unfold background. destruct (samples c) as [|n] eqn:E; [ lia | ]. clear Hn.
  set (g := fun s => if Nat.ltb s (S n) then col st s i else lo).
  assert (Hg : forall s, lo <= g s <= hi). { intros s. unfold g. destruct (Nat.ltb_spec s (S n)); auto. specialize (H 0%nat ltac:(lia)). lia. }
  assert (Q1 : (fold_left (fun a s => a + inject_Z (col st s i) / inject_Z (Z.of_nat (S n))) (seq 0 (S n)) 0 == inject_Z (fold_right (fun s z => g s + z)%Z 0%Z (seq 0 (S n))) / inject_Z (Z.of_nat (S n)))%Q).
  { transitivity (fold_left (fun a s => a + inject_Z (g s) / inject_Z (Z.of_nat (S n))) (seq 0 (S n)) 0)%Q.
    - assert (X : forall l a, (forall s, In s l -> (s < S n)%nat) -> fold_left (fun a s => a + inject_Z (col st s i) / inject_Z (Z.of_nat (S n)))%Q l a = fold_left (fun a s => a + inject_Z (g s) / inject_Z (Z.of_nat (S n)))%Q l a).
      { induction l as [|s l IH]; intros a Hl; cbn [fold_left]; auto. rewrite IH by (intros; apply Hl; now right). assert (g s = col st s i) as -> by (unfold g; rewrite (proj2 (Nat.ltb_lt _ _) (Hl s (or_introl eq_refl))); reflexivity). reflexivity. }
      rewrite X; [ reflexivity | ]. intros s I. apply in_seq in I. lia.
    - rewrite (mean_between g n lo hi Hg). lra. }
  pose proof (sum_between g lo hi (seq 0 (S n)) ltac:(intros; apply Hg)) as [B1 B2]. rewrite seq_length in B1, B2.
  assert (P : (0 < inject_Z (Z.of_nat (S n)))%Q) by (change 0%Q with (inject_Z 0); rewrite <- Zlt_Qlt; lia).
  set (x := fold_left _ _ _) in *. clearbody x.
  assert (Lx : (inject_Z lo <= x)%Q). { rewrite Q1. apply Qle_shift_div_l; auto. rewrite <- inject_Z_mult, <- Zle_Qle. auto. }
  assert (Hx : (x <= inject_Z hi)%Q). { rewrite Q1. apply Qle_shift_div_r; auto. rewrite <- inject_Z_mult, <- Zle_Qle. auto. }
  apply half_even_mono in Lx, Hx. rewrite half_even_int in Lx, Hx. unfold sat_uchar. destruct (Z.ltb_spec (half_even x) 0); [ lia | ]. destruct (Z.ltb_spec 255 (half_even x)); lia.
Qed.

(* ------------------------------------------------------------------ reachable states *)
Lemma increasing_nodup l : increasing l -> NoDup l.
Proof. induction l as [|a l IH]; cbn [increasing]; [ constructor | ]. intros (H & L). constructor; auto. intros I. specialize (H a I). lia. Qed.
Lemma fst_unique {A B} (m1 m2 : list (A * B)) i fg b : NoDup (map fst (m1 ++ (i, fg) :: m2)) -> (In (i, b) (m1 ++ (i, fg) :: m2) <-> b = fg).
Proof.
  rewrite map_app. cbn [map fst]. intros N. apply NoDup_remove_2 in N. split.
  - intros I. apply in_app_or in I. destruct I as [I|[I|I]].
    + exfalso. apply N, in_or_app. left. apply in_map_iff. exists (i, b). auto.
    + congruence.
    + exfalso. apply N, in_or_app. right. apply in_map_iff. exists (i, b). auto.
  - intros ->. apply in_or_app. right. now left.
Qed.

Lemma reachable c rnd size cur given img pxs st0 l : (forall n, 0 <= rnd n) -> (0 < samples c)%nat -> channels c = 1 \/ channels c = 3 -> byte_image img -> bytes_only l ->
  initialize c rnd cur given size img = Done (pxs, st0) ->
  listed size pxs /\ NoDup pxs /\ masked (channels c) size pxs img (seen st0) /\
  exists st, play c rnd size pxs l st0 = Some st /\ past c size (fun im => im = seen st0 \/ In im (frames l)) pxs st.
Proof.
  intros Hr Hn Hk B Bl E. destruct (initialize_ok c rnd size Hr Hn Hk cur given img B) as [X|(roi & st0' & _ & X & L & M & Pa)]; rewrite X in E; [ discriminate | ].
  injection E as <- <-. split; auto. split; [ apply increasing_nodup, lut_increasing | ]. split; auto.
  apply (play_past c rnd size Hr Hn Hk (fun im => im = seen st0' \/ In im (frames l)) _ L l st0'); auto.
  destruct Pa as [A1 A2 A3]. split; auto. intros s p Hs Hp I. eapply stems_weaken; [ | apply A3; auto ]. cbv beta. intros i <-. left. auto.
Qed.
