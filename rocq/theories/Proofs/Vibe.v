From Coq Require Import ZArith List Bool Lia.
From Verif Require Import Lib.Grid Model.Distances Model.Sampling Spec.Sampling Proofs.Sampling Model.Vibe Spec.Vibe.
Import ListNotations.
Open Scope Z_scope.

(* ------------------------------------------------------------------ counting *)

Definition similar_count (c : config) (v : list Z) (l : list (list Z)) : nat := length (filter (close c v) l).

Lemma good_count_min c v l : forall good, (good <= required c)%nat ->
  good_count c v l good = Nat.min (required c) (good + similar_count c v l).
Proof.
  unfold similar_count. induction l as [|b l IH]; intros good H; cbn [good_count filter].
  - cbn. lia.
  - destruct (Nat.ltb_spec good (required c)).
    + rewrite IH by (destruct (close c v b); lia). destruct (close c v b); cbn [length]; lia.
    + lia.
Qed.

Lemma good_count_ltb c v l : Nat.ltb (good_count c v l 0) (required c) = Nat.ltb (similar_count c v l) (required c).
Proof.
  rewrite good_count_min by lia. destruct (Nat.ltb_spec (similar_count c v l) (required c)); [ apply Nat.ltb_lt; lia | apply Nat.ltb_ge; lia ].
Qed.

(* ------------------------------------------------------------------ distances *)

Lemma sop_small x : -1073741824 <= x < 1073741824 -> sop 32 x = Some x.
Proof.
  intros H. unfold sop. destruct (Z.leb_spec (- 2 ^ (32 - 1)) x) as [A|A], (Z.ltb_spec x (2 ^ (32 - 1))) as [B|B]; cbn [andb]; auto;
  change (2 ^ (32 - 1)) with 2147483648 in *; lia.
Qed.

Lemma L1_bytes a b : 0 <= a <= 255 -> 0 <= b <= 255 -> L1dist 8 a b = Some (Z.abs (a - b)).
Proof.
  intros. unfold L1dist. change (arith_width 8) with 32. rewrite sop_small by lia. cbn [bind]. rewrite sop_small by lia. cbn [bind].
  unfold uconv. rewrite Z.mod_small by (change (2 ^ 8) with 256; lia). reflexivity.
Qed.

Lemma diff_square a b : 0 <= a <= 255 -> 0 <= b <= 255 -> 0 <= (a - b) * (a - b) <= 65025.
Proof. intros. assert (D : -255 <= a - b <= 255) by lia. generalize dependent (a - b). intros d D. nia. Qed.

Lemma L2_bytes a b : 0 <= a <= 255 -> 0 <= b <= 255 -> L2sqrdist 8 a b = Some ((a - b) * (a - b)).
Proof.
  intros Ha Hb. pose proof (diff_square a b Ha Hb). unfold L2sqrdist. change (arith_width 8) with 32. rewrite sop_small by lia. cbn [bind]. rewrite sop_small by lia. cbn [bind].
  unfold uconv. rewrite Z.mod_small by (change (2 ^ (2 * 8)) with 65536; lia). reflexivity.
Qed.

Lemma L2_arr v : forall b acc, Forall (fun x => 0 <= x <= 255) v -> Forall (fun x => 0 <= x <= 255) b -> 0 <= acc < 65536 ->
  L2sqrdist_arr 8 16 v b acc = Some ((acc + squares v b) mod 65536).
Proof.
  induction v as [|x v IH]; intros b acc Fv Fb A; cbn [L2sqrdist_arr squares].
  - rewrite Z.mod_small by lia. f_equal. lia.
  - destruct b as [|y b]; [ rewrite Z.mod_small by lia; f_equal; lia | ].
    inversion Fv; inversion Fb; subst. rewrite L2_bytes by auto. cbn [bind].
    unfold uconv at 2. change (2 ^ 16) with 65536. rewrite (Z.mod_small ((x - y) * (x - y))) by (pose proof (diff_square x y); lia).
    unfold uconv. change (2 ^ 16) with 65536. pose proof (Z.mod_pos_bound (acc + (x - y) * (x - y)) 65536 ltac:(lia)).
    rewrite IH by auto. f_equal. rewrite Z.add_mod_idemp_l by lia. f_equal. lia.
Qed.

Lemma close_gray c v b : kind_of c = Gray -> byte_pixel 1 v -> byte_pixel 1 b -> (close c v b = true <-> similar c v b).
Proof.
  intros K [Lv Fv] [Lb Fb]. unfold close, similar. rewrite K.
  destruct v as [|x [|? ?]], b as [|y [|? ?]]; try discriminate. inversion Fv; inversion Fb; subst. cbn [hd].
  rewrite L1_bytes by auto. apply Z.ltb_lt.
Qed.

Lemma close_colour c v b : kind_of c = Colour -> byte_pixel 3 v -> byte_pixel 3 b ->
  (close c v b = true <-> squares v b mod 65536 < (threshold c * 3) * (threshold c * 3)).
Proof.
  intros K [Lv Fv] [Lb Fb]. unfold close. rewrite K. unfold L2dist_radicand. change (2 * 8) with 16. rewrite L2_arr by (auto; lia). apply Z.ltb_lt.
Qed.

Lemma squares_nonneg v : forall b, 0 <= squares v b.
Proof. induction v as [|x v IH]; intros [|y b]; cbn; try lia. specialize (IH b). pose proof (Z.square_nonneg (x - y)); lia. Qed.

Lemma close_colour_exact c v b : kind_of c = Colour -> byte_pixel 3 v -> byte_pixel 3 b -> squares v b < 65536 ->
  (close c v b = true <-> similar c v b).
Proof.
  intros K Bv Bb S. rewrite close_colour by auto. unfold similar. rewrite K.
  rewrite Z.mod_small by (pose proof (squares_nonneg v b); lia). reflexivity.
Qed.

Lemma similar_close c v b : byte_pixel (channels (kind_of c)) v -> byte_pixel (channels (kind_of c)) b -> similar c v b -> close c v b = true.
Proof.
  intros Bv Bb S. destruct (kind_of c) eqn:K; cbn in Bv, Bb.
  - apply close_gray; auto.
  - apply close_colour; auto. unfold similar in S. rewrite K in S.
    pose proof (squares_nonneg v b). pose proof (Z.mod_le (squares v b) 65536 ltac:(auto) ltac:(lia)). lia.
Qed.

(* ------------------------------------------------------------------ places *)

Lemma raster_in size p : In p (raster size) <-> in_image size p.
Proof.
  unfold raster, in_image. rewrite in_flat_map. split.
  - intros (y & Iy & I). apply in_map_iff in I. destruct I as (x & <- & Ix). rewrite in_zrange in Ix, Iy. cbn. lia.
  - intros [Hx Hy]. exists (snd p). split; [ apply in_zrange; lia | ]. apply in_map_iff. exists (fst p). split; [ destruct p; auto | apply in_zrange; lia ].
Qed.

Lemma clamp1_near v n o d : 0 <= o < n -> Z.abs (v - o) <= d -> 0 <= clamp1 v 0 n < n /\ Z.abs (clamp1 v 0 n - o) <= d.
Proof. intros. unfold clamp1. destruct (Z.ltb_spec v 0), (Z.leb_spec (n - 0) v); lia. Qed.

Lemma sample_near r p size : 0 <= r -> in_image size p ->
  in_image size (getSamplePosition_7x7_std2 r p 0 size) /\ within 3 p (getSamplePosition_7x7_std2 r p 0 size).
Proof.
  intros Hr [Hx Hy]. unfold getSamplePosition_7x7_std2, getSamplePosition.
  destruct K7_kernel as [[HL HF] HT].
  assert (B : 0 < 1 + Z.rem r 512 <= total K7).
  { rewrite HT. rewrite Z.rem_mod_nonneg by lia. pose proof (Z.mod_pos_bound r 512 ltac:(lia)). lia. }
  destruct (scan_spec K7 7 (1 + Z.rem r 512) 0 HF B) as (i & j & -> & Hj & Hi & _). cbn [length K7] in Hj. rewrite Nat.add_0_l.
  unfold clampImageCoords. cbn [fst snd]. change (Z.of_nat 7 / 2) with 3. unfold in_image, within. cbn [fst snd].
  pose proof (clamp1_near (Z.of_nat i + (fst p - 3)) (fst size) (fst p) 3 Hx ltac:(lia)).
  pose proof (clamp1_near (Z.of_nat j + (snd p - 3)) (snd size) (snd p) 3 Hy ltac:(lia)). lia.
Qed.

Lemma neighbour_near r p size : 0 <= r -> in_image size p ->
  exists q, getNeighborPosition_3x3 r p 0 size = Some q /\ in_image size q /\ within 1 q p.
Proof.
  intros Hr [Hx Hy]. unfold getNeighborPosition_3x3, getNeighborPosition. change (Z.of_nat (length N8)) with 8.
  rewrite Z.rem_mod_nonneg by lia. pose proof (Z.mod_pos_bound r 8 ltac:(lia)) as B.
  destruct (Z.ltb_spec (r mod 8) 0); [ lia | ].
  destruct (nth_error N8 (Z.to_nat (r mod 8))) as [d|] eqn:E.
  - exists (clampImageCoords (fst p + fst d, snd p + snd d) 0 size). split; [ reflexivity | ].
    assert (D : Z.abs (fst d) <= 1 /\ Z.abs (snd d) <= 1).
    { apply nth_error_In in E. cbn in E. repeat (destruct E as [ <- | E ]; [ cbn; lia | ]). destruct E. }
    unfold clampImageCoords, in_image, within. cbn [fst snd].
    pose proof (clamp1_near (fst p + fst d) (fst size) (fst p) 1 Hx ltac:(lia)).
    pose proof (clamp1_near (snd p + snd d) (snd size) (snd p) 1 Hy ltac:(lia)). lia.
  - apply nth_error_None in E. cbn in E. lia.
Qed.

(* ------------------------------------------------------------------ stored values *)

Section Run.
  Context (c : config) (rnd : nat -> Z) (size : Z * Z) (Hrnd : forall k, 0 <= rnd k).

  Lemma put_cases m s p v s' p' : (put m s p v s' p' = v /\ s' = s /\ p' = p) \/ (put m s p v s' p' = m s' p').
  Proof.
    unfold put. destruct (Nat.eqb_spec s' s); cbn; [ | auto ].
    destruct (Z.eqb_spec (fst p') (fst p)), (Z.eqb_spec (snd p') (snd p)); cbn; auto. left. repeat split; auto. destruct p, p'; cbn in *; congruence.
  Qed.

  Lemma put_same m s p v : put m s p v s p = v.
  Proof. unfold put. rewrite Nat.eqb_refl, !Z.eqb_refl. reflexivity. Qed.

  Definition around (img : Z * Z -> list Z) (p : Z * Z) (v : list Z) : Prop := exists q, in_image size q /\ within 3 p q /\ v = img q.

  Lemma init_fold img l : forall st, (forall sp, In sp l -> in_image size (snd sp)) -> forall s p,
    (around img p (bg st s p) \/ In (s, p) l) -> around img p (bg (fold_left (init_one rnd size img) l st) s p).
  Proof.
    induction l as [|sp l IH]; intros st Hl s p H; cbn [fold_left].
    - destruct H as [H|[]]; auto.
    - apply IH; [ intros; apply Hl; right; auto | ].
      destruct (sample_near (rnd (used st)) (snd sp) size (Hrnd _) (Hl sp (or_introl eq_refl))) as [Q1 Q2].
      unfold init_one. cbn [bg].
      destruct (put_cases (bg st) (fst sp) (snd sp) (img (getSamplePosition_7x7_std2 (rnd (used st)) (snd sp) 0 size)) s p) as [(E & Es & Ep)|E].
      + left. rewrite E. subst. eexists; eauto.
      + rewrite E. destruct H as [H|[H|H]]; auto. subst sp. cbn in E. left.
        rewrite put_same in E. rewrite <- E. eexists; eauto.
  Qed.

  Lemma init_around img s p : (s < samples c)%nat -> in_image size p -> around img p (bg (initialize c rnd size img) s p).
  Proof.
    intros Hs Hp. unfold initialize. apply init_fold.
    - intros [s' p'] I. apply in_prod_iff in I. apply raster_in. tauto.
    - right. apply in_prod_iff. split; [ apply in_seq; lia | apply raster_in; auto ].
  Qed.

  Lemma apply_pixel_cases rate img st p : in_image size p -> (0 < samples c)%nat ->
    (fst (apply_pixel c rnd rate size img st p) = true -> snd (apply_pixel c rnd rate size img st p) = st) /\
    forall s p', bg (snd (apply_pixel c rnd rate size img st p)) s p' = bg st s p' \/
      (fst (apply_pixel c rnd rate size img st p) = false /\ (s < samples c)%nat /\ in_image size p' /\ within 1 p' p /\
       bg (snd (apply_pixel c rnd rate size img st p)) s p' = img p).
  Proof.
    intros Hp Hn. unfold apply_pixel. rewrite good_count_ltb. destruct (Nat.ltb _ _); cbn [fst snd]; [ split; auto | split; [ discriminate | ] ].
    assert (I : forall k, (Z.to_nat (rnd k mod Z.of_nat (samples c)) < samples c)%nat).
    { intros k. pose proof (Z.mod_pos_bound (rnd k) (Z.of_nat (samples c)) ltac:(lia)). lia. }
    assert (S0 : within 1 p p) by (unfold within; lia).
    set (st1 := if rnd (used st) mod rate =? 0 then _ else _).
    assert (H1 : forall s p', bg st1 s p' = bg st s p' \/ ((s < samples c)%nat /\ in_image size p' /\ within 1 p' p /\ bg st1 s p' = img p)).
    { intros s p'. subst st1. destruct (rnd (used st) mod rate =? 0); cbn [bg]; auto.
      match goal with |- context[put ?a ?b ?cc ?d s p'] => destruct (put_cases a b cc d s p') as [(-> & -> & ->)| -> ] end; auto. }
    intros s p'. destruct (rnd (used st1) mod rate =? 0).
    - destruct (neighbour_near (rnd (S (used st1))) p size (Hrnd _) Hp) as (q & -> & Hq & Wq). cbn [bg].
      match goal with |- context[put ?a ?b ?cc ?d s p'] => destruct (put_cases a b cc d s p') as [(-> & -> & ->)| -> ] end.
      + right. auto.
      + destruct (H1 s p') as [H|H]; [ left; auto | right; tauto ].
    - cbn [bg]. destruct (H1 s p') as [H|H]; [ left; auto | right; tauto ].
  Qed.

  Lemma apply_pixel_fg rate img st p :
    fst (apply_pixel c rnd rate size img st p) = Nat.ltb (similar_count c (img p) (map (fun s => bg st s p) (seq 0 (samples c)))) (required c).
  Proof. unfold apply_pixel. rewrite good_count_ltb. destruct (Nat.ltb _ _); reflexivity. Qed.

  Lemma pixels_app rate img a b st :
    apply_pixels c rnd rate size img (a ++ b) st =
    (fst (apply_pixels c rnd rate size img a st) ++ fst (apply_pixels c rnd rate size img b (snd (apply_pixels c rnd rate size img a st))),
     snd (apply_pixels c rnd rate size img b (snd (apply_pixels c rnd rate size img a st)))).
  Proof.
    revert st. induction a as [|p a IH]; intros st; cbn [app apply_pixels fst snd].
    - destruct (apply_pixels c rnd rate size img b st); reflexivity.
    - destruct (apply_pixel c rnd rate size img st p) as [fg st1]. rewrite IH.
      destruct (apply_pixels c rnd rate size img a st1) as [m st2]. reflexivity.
  Qed.

  Lemma pixels_points rate img l : forall st, map fst (fst (apply_pixels c rnd rate size img l st)) = l.
  Proof.
    induction l as [|p l IH]; intros st; cbn [apply_pixels]; [ reflexivity | ].
    destruct (apply_pixel c rnd rate size img st p) as [fg st1]. specialize (IH st1).
    destruct (apply_pixels c rnd rate size img l st1) as [m st2]. cbn in *. rewrite IH. reflexivity.
  Qed.

  Lemma pixels_cases rate img l : (0 < samples c)%nat -> (forall p, In p l -> in_image size p) -> forall st s p',
    bg (snd (apply_pixels c rnd rate size img l st)) s p' = bg st s p' \/
    exists p, In (p, false) (fst (apply_pixels c rnd rate size img l st)) /\ (s < samples c)%nat /\ in_image size p' /\ within 1 p' p /\
      bg (snd (apply_pixels c rnd rate size img l st)) s p' = img p.
  Proof.
    intros Hn. induction l as [|p l IH]; intros Hl st s p'; cbn [apply_pixels]; [ left; reflexivity | ].
    destruct (apply_pixel_cases rate img st p (Hl p (or_introl eq_refl)) Hn) as [_ C].
    destruct (apply_pixel c rnd rate size img st p) as [fg st1]. cbn [fst snd] in C.
    specialize (IH ltac:(intros; apply Hl; right; auto) st1 s p').
    destruct (apply_pixels c rnd rate size img l st1) as [m st2]. cbn [fst snd] in *.
    destruct IH as [E|(q & Iq & R)].
    - destruct (C s p') as [E'|(-> & H1 & H2 & H3 & E')].
      + left. congruence.
      + right. exists p. rewrite E. split; [ left; auto | auto ].
    - right. exists q. split; [ right; auto | auto ].
  Qed.

  Lemma pixels_still rate img l : (0 < samples c)%nat -> (forall p, In p l -> in_image size p) -> forall st,
    (forall p fg, In (p, fg) (fst (apply_pixels c rnd rate size img l st)) -> fg = true) -> snd (apply_pixels c rnd rate size img l st) = st.
  Proof.
    intros Hn. induction l as [|p l IH]; intros Hl st; cbn [apply_pixels]; [ reflexivity | ].
    destruct (apply_pixel_cases rate img st p (Hl p (or_introl eq_refl)) Hn) as [C _].
    destruct (apply_pixel c rnd rate size img st p) as [fg st1]. cbn [fst snd] in C.
    specialize (IH ltac:(intros; apply Hl; right; auto) st1).
    destruct (apply_pixels c rnd rate size img l st1) as [m st2]. cbn [fst snd] in *. intros A.
    rewrite IH by (intros q f I; apply (A q f); right; auto). apply C. apply (A p fg). left; auto.
  Qed.

  Lemma seen_later first later p v f : seen size first later p v -> seen size first (later ++ [f]) p v.
  Proof.
    intros [H|(g & q & I & R)]; [ left; auto | right ]. exists g, q. split; [ apply in_or_app; auto | auto ].
  Qed.

  Lemma pixels_seen rate img first later l : (0 < samples c)%nat -> (forall p, In p l -> in_image size p) -> forall st,
    (forall s p, (s < samples c)%nat -> in_image size p -> seen size first later p (bg st s p)) ->
    forall s p, (s < samples c)%nat -> in_image size p -> seen size first (later ++ [img]) p (bg (snd (apply_pixels c rnd rate size img l st)) s p).
  Proof.
    intros Hn Hl st H s p Hs Hp. destruct (pixels_cases rate img l Hn Hl st s p) as [ -> |(q & Iq & _ & _ & W & ->)].
    - apply seen_later; auto.
    - right. exists img, q. split; [ apply in_or_app; right; left; auto | ].
      split; [ | auto ]. apply (in_map fst) in Iq. rewrite pixels_points in Iq. apply Hl; auto.
  Qed.

  Lemma play_seen first frames : (0 < samples c)%nat -> forall st later,
    (forall s p, (s < samples c)%nat -> in_image size p -> seen size first later p (bg st s p)) ->
    forall s p, (s < samples c)%nat -> in_image size p -> seen size first (later ++ map fst frames) p (bg (play c rnd size frames st) s p).
  Proof.
    intros Hn. induction frames as [|[img rate] fs IH]; intros st later H s p Hs Hp; cbn [play map fst].
    - rewrite app_nil_r. auto.
    - change (img :: map fst fs) with ([img] ++ map fst fs). rewrite app_assoc. apply IH; auto.
      intros s' p' Hs' Hp'. apply pixels_seen; auto. intros q Iq. apply raster_in. auto.
  Qed.

  Lemma run_seen first frames s p : (0 < samples c)%nat -> (s < samples c)%nat -> in_image size p ->
    seen size first (map fst frames) p (bg (play c rnd size frames (initialize c rnd size first)) s p).
  Proof.
    intros Hn Hs Hp. apply (play_seen first frames Hn (initialize c rnd size first) []); auto.
    intros s' p' Hs' Hp'. left. apply init_around; auto.
  Qed.

  (* a pixel like everything seen around it is background *)
  Lemma familiar first frames rate img p fg : (0 < samples c)%nat -> (required c <= samples c)%nat ->
    (forall v, seen size first (map fst frames ++ [img]) p v -> close c (img p) v = true) ->
    In (p, fg) (fst (apply c rnd rate size img (play c rnd size frames (initialize c rnd size first)))) -> fg = false.
  Proof.
    intros Hn Hr H I. unfold apply in I.
    assert (Ip : In p (raster size)). { apply (in_map fst) in I. rewrite pixels_points in I. auto. }
    set (st := play c rnd size frames (initialize c rnd size first)) in *.
    assert (Hst : forall s p, (s < samples c)%nat -> in_image size p -> seen size first (map fst frames) p (bg st s p)) by (intros; apply run_seen; auto).
    assert (G : forall l st', (forall q, In q l -> in_image size q) ->
      (forall s, (s < samples c)%nat -> seen size first (map fst frames ++ [img]) p (bg st' s p)) ->
      In (p, fg) (fst (apply_pixels c rnd rate size img l st')) -> fg = false).
    { clear I Hst st. induction l as [|q l IH]; intros st' Hl Hs I; cbn [apply_pixels] in I; [ destruct I | ].
      pose proof (apply_pixel_fg rate img st' q) as F.
      destruct (apply_pixel_cases rate img st' q (Hl q (or_introl eq_refl)) Hn) as [_ C].
      destruct (apply_pixel c rnd rate size img st' q) as [fq st1]. cbn [fst snd] in *.
      specialize (IH st1 ltac:(intros; apply Hl; right; auto)).
      destruct (apply_pixels c rnd rate size img l st1) as [m st2]. cbn [fst snd] in *.
      destruct I as [E|I].
      - inversion E as [[E1 E2]]; subst q. rewrite E2 in F. rewrite F. apply Nat.ltb_ge. unfold similar_count. rewrite (filter_all (close c (img p))).
        + rewrite map_length, seq_length. auto.
        + intros v Iv. apply in_map_iff in Iv. destruct Iv as (s & <- & Is). apply in_seq in Is. apply H, Hs. lia.
      - apply IH; auto. intros s Hs'. destruct (C s p) as [ -> |(_ & _ & _ & W & ->)]; auto.
        right. exists img, q. split; [ apply in_or_app; right; left; auto | ]. split; [ apply Hl; left; auto | auto ]. }
    apply (G (raster size) st); auto.
    - intros q Iq. apply raster_in; auto.
    - intros s Hs. apply seen_later. apply Hst; auto. apply raster_in; auto.
  Qed.

  (* updates always happen with a learning rate of one *)
  Lemma rate_one img st p : in_image size p -> (0 < samples c)%nat -> fst (apply_pixel c rnd 1 size img st p) = false ->
    exists s, (s < samples c)%nat /\ bg (snd (apply_pixel c rnd 1 size img st p)) s p = img p.
  Proof.
    intros Hp Hn. unfold apply_pixel. rewrite good_count_ltb. destruct (Nat.ltb _ _); cbn [fst snd]; [ discriminate | intros _ ].
    rewrite !Z.mod_1_r. cbn [used Z.eqb bg].
    destruct (neighbour_near (rnd (S (S (S (used st))))) p size (Hrnd _) Hp) as (q & -> & _ & _). cbn [bg].
    exists (Z.to_nat (rnd (S (used st)) mod Z.of_nat (samples c))).
    split; [ pose proof (Z.mod_pos_bound (rnd (S (used st))) (Z.of_nat (samples c)) ltac:(lia)); lia | ].
    match goal with |- put ?a ?b ?cc ?d ?s ?p' = _ => destruct (put_cases a b cc d s p') as [(-> & _ & _)| -> ] end; [ reflexivity | apply put_same ].
  Qed.
End Run.

(* ------------------------------------------------------------------ decisions *)

Lemma enough (P : nat -> bool) n r : (r <= length (filter P (seq 0 n)))%nat <->
  exists l, NoDup l /\ length l = r /\ forall s, In s l -> (s < n)%nat /\ P s = true.
Proof.
  split.
  - intros H. exists (firstn r (filter P (seq 0 n))). split; [ | split ].
    + assert (N : NoDup (filter P (seq 0 n))) by (apply NoDup_filter, seq_NoDup).
      rewrite <- (firstn_skipn r) in N. clear H. revert N. generalize (firstn r (filter P (seq 0 n))) (skipn r (filter P (seq 0 n))). intros a b.
      induction a as [|x a IH]; cbn; intros N; [ constructor | ]. inversion N; subst. constructor; [ intros I; apply H1, in_or_app; auto | auto ].
    + apply firstn_length_le. auto.
    + intros s I. assert (J : In s (filter P (seq 0 n))) by (rewrite <- (firstn_skipn r); apply in_or_app; auto).
      apply filter_In in J. destruct J as [J1 J2]. apply in_seq in J1. split; [ lia | auto ].
  - intros (l & N & <- & H). apply NoDup_incl_length; auto. intros s I. destruct (H s I) as [A B]. apply filter_In. split; [ apply in_seq; lia | auto ].
Qed.

Lemma raster_nodup size : NoDup (raster size).
Proof.
  assert (E : raster size = map (fun yx => (snd yx, fst yx)) (grid 0 (snd size) 0 (fst size))).
  { unfold raster, grid. induction (zrange 0 (snd size)) as [|y l IH]; [ reflexivity | ].
    cbn [flat_map list_prod]. rewrite map_app, map_map, IH. reflexivity. }
  rewrite E. apply FinFun.Injective_map_NoDup; [ | apply nodup_grid ]. intros [a b] [a' b'] H. cbn in H. congruence.
Qed.

Lemma decision c rnd rate size img st pre p post : raster size = pre ++ p :: post ->
  let st' := snd (apply_pixels c rnd rate size img pre st) in
  byte_pixel (channels (kind_of c)) (img p) ->
  (forall s, (s < samples c)%nat -> byte_pixel (channels (kind_of c)) (bg st' s p) /\ (kind_of c = Colour -> squares (img p) (bg st' s p) < 65536)) ->
  exists fg, In (p, fg) (fst (apply c rnd rate size img st)) /\
    (fg = false <-> exists l, NoDup l /\ length l = required c /\ forall s, In s l -> (s < samples c)%nat /\ similar c (img p) (bg st' s p)).
Proof.
  intros R st' Bi Bs. unfold apply. rewrite R, pixels_app. fold st'. cbn [apply_pixels].
  pose proof (apply_pixel_fg c rnd size rate img st' p) as F.
  destruct (apply_pixel c rnd rate size img st' p) as [fg st1]. cbn [fst] in F.
  destruct (apply_pixels c rnd rate size img post st1) as [m st2]. cbn [fst].
  exists fg. split; [ apply in_or_app; right; left; reflexivity | ].
  rewrite F, Nat.ltb_ge. unfold similar_count. rewrite filter_map, map_length.
  rewrite (enough (fun s => close c (img p) (bg st' s p)) (samples c) (required c)).
  assert (E : forall s, (s < samples c)%nat -> (close c (img p) (bg st' s p) = true <-> similar c (img p) (bg st' s p))).
  { intros s Hs. destruct (Bs s Hs) as [B1 B2]. destruct (kind_of c) eqn:K; [ apply close_gray; auto | apply close_colour_exact; auto ]. }
  split; intros (l & N & L & H); exists l; (split; [ auto | split; [ auto | ] ]); intros s I; destruct (H s I) as [A B]; (split; [ auto | apply E; auto ]).
Qed.

Lemma frame_updates c rnd rate size img st s p : (forall k, 0 <= rnd k) -> (0 < samples c)%nat ->
  bg (snd (apply c rnd rate size img st)) s p = bg st s p \/
  exists q, In (q, false) (fst (apply c rnd rate size img st)) /\ (s < samples c)%nat /\ in_image size p /\ within 1 p q /\
    bg (snd (apply c rnd rate size img st)) s p = img q.
Proof. intros Hr Hn. apply pixels_cases; auto. intros q I. apply raster_in; auto. Qed.

Lemma frame_still c rnd rate size img st : (forall k, 0 <= rnd k) -> (0 < samples c)%nat ->
  (forall p fg, In (p, fg) (fst (apply c rnd rate size img st)) -> fg = true) -> snd (apply c rnd rate size img st) = st.
Proof. intros Hr Hn. apply pixels_still; auto. intros q I. apply raster_in; auto. Qed.

Lemma static c rnd size first frames rate img p fg k : (forall k, 0 <= rnd k) ->
  (0 < samples c)%nat -> (required c <= samples c)%nat -> 0 < threshold c -> byte_pixel (channels (kind_of c)) k ->
  (forall q, first q = k) -> (forall f q, In f frames -> fst f q = k) -> (forall q, img q = k) ->
  In (p, fg) (fst (apply c rnd rate size img (play c rnd size frames (initialize c rnd size first)))) -> fg = false.
Proof.
  intros Hr Hn Hq Ht Bk H1 H2 H3 I. apply (familiar c rnd size Hr first frames rate img p fg Hn Hq); auto.
  intros v S. assert (v = k).
  { destruct S as [(q & _ & _ & ->)|(f & q & If & _ & _ & ->)]; auto. apply in_app_or in If. destruct If as [If|[ <- |[]]]; auto.
    apply in_map_iff in If. destruct If as (fr & <- & If). auto. }
  subst v. rewrite H3. apply similar_close; auto. unfold similar. destruct (kind_of c).
  - rewrite Z.sub_diag. cbn. auto.
  - assert (Z0 : forall l, squares l l = 0) by (induction l; cbn; lia). rewrite Z0. nia.
Qed.

Lemma play_frozen c rnd size frames : (forall k, 0 <= rnd k) -> (0 < samples c)%nat -> forall st s p,
  ~ ((s < samples c)%nat /\ in_image size p) -> bg (play c rnd size frames st) s p = bg st s p.
Proof.
  intros Hr Hn. induction frames as [|[img rate] fs IH]; intros st s p H; cbn [play]; [ reflexivity | ].
  rewrite IH by auto. destruct (frame_updates c rnd rate size img st s p Hr Hn) as [E|(q & _ & A & B & _)]; [ auto | tauto ].
Qed.
