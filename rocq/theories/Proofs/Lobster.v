From Coq Require Import ZArith NArith QArith Qround List Bool Lia Lqa.
From Verif Require Import Lib.Grid Model.Bits Model.Distances Model.Sampling Model.Simd Model.Lbsp Model.RoiTable Spec.Bits Spec.Simd Spec.Lbsp Proofs.Bits Proofs.Lbsp
  Proofs.Sampling Spec.RoiTable Proofs.RoiTable Spec.Vibe Proofs.Vibe Spec.Subsense Proofs.Subsense Model.Lobster Spec.Lobster.
From Verif Require Import Spec.Vibe Model.Lobster Spec.Lobster.
Import ListNotations.
Open Scope Z_scope.

(* ------------------------------------------------------------------ buffers *)

Lemma all_map {A B} (f : A -> option B) (g : A -> B) l : (forall x, In x l -> f x = Some (g x)) -> all (map f l) = Some (map g l).
Proof.
  induction l as [|a l IH]; intros H; auto. cbn [map all]. rewrite (H a) by now left. rewrite IH; auto. intros x I. apply H. now right.
Qed.
Lemma get_in {A} n (m : Z -> A) i : 0 <= i < n -> get n m i = Some (m i).
Proof. intros H. unfold get, inside_buf. destruct (Z.leb_spec 0 i), (Z.ltb_spec i n); cbn; auto; lia. Qed.

Lemma place_range size p : in_image size p -> 0 <= place size p < fst size * snd size.
Proof. intros [Hx Hy]. unfold place. split; nia. Qed.
Lemma point_place size p : in_image size p -> point size (place size p) = p.
Proof.
  intros [Hx Hy]. unfold point, place. destruct p as [x y]. cbn [fst snd] in *. f_equal.
  - rewrite Z.add_comm, Z.mul_comm, Z_mod_plus_full. apply Z.mod_small. lia.
  - rewrite Z.add_comm, Z.mul_comm, Z_div_plus_full by lia. rewrite Z.div_small by lia. lia.
Qed.
Lemma place_inj size p q : in_image size p -> in_image size q -> place size p = place size q -> p = q.
Proof. intros Hp Hq E. rewrite <- (point_place size p Hp), <- (point_place size q Hq), E. reflexivity. Qed.
Lemma inner_image size p : inner size p -> in_image size p.
Proof. unfold inner, in_image. lia. Qed.

Lemma clamp1_inner v n o d : 2 <= o < n - 2 -> Z.abs (v - o) <= d -> 2 <= clamp1 v 2 n < n - 2 /\ Z.abs (clamp1 v 2 n - o) <= d.
Proof. intros. unfold clamp1. destruct (Z.ltb_spec v 2), (Z.leb_spec (n - 2) v); lia. Qed.

Lemma sample_inner r p size : 0 <= r -> inner size p ->
  inner size (getSamplePosition_7x7_std2 r p 2 size) /\ within 3 p (getSamplePosition_7x7_std2 r p 2 size).
Proof.
  intros Hr [Hx Hy]. unfold getSamplePosition_7x7_std2, getSamplePosition.
  destruct K7_kernel as [[HL HF] HT].
  assert (B : 0 < 1 + Z.rem r 512 <= Spec.Sampling.total K7).
  { rewrite HT. rewrite Z.rem_mod_nonneg by lia. pose proof (Z.mod_pos_bound r 512 ltac:(lia)). lia. }
  destruct (scan_spec K7 7 (1 + Z.rem r 512) 0 HF B) as (x & y & -> & Hj & Hi & _). cbn [length K7] in Hj. rewrite Nat.add_0_l.
  unfold clampImageCoords. cbn [fst snd]. unfold inner, within. change (Z.of_nat 7 / 2) with 3. cbn [fst snd].
  pose proof (clamp1_inner (Z.of_nat x + (fst p - 3)) (fst size) (fst p) 3 Hx ltac:(lia)).
  pose proof (clamp1_inner (Z.of_nat y + (snd p - 3)) (snd size) (snd p) 3 Hy ltac:(lia)). lia.
Qed.

Lemma neighbour_inner r p size : 0 <= r -> inner size p ->
  exists q, getNeighborPosition_3x3 r p 2 size = Some q /\ inner size q /\ within 1 q p.
Proof.
  intros Hr [Hx Hy]. unfold getNeighborPosition_3x3, getNeighborPosition. change (Z.of_nat (length N8)) with 8.
  rewrite Z.rem_mod_nonneg by lia. pose proof (Z.mod_pos_bound r 8 ltac:(lia)) as B.
  destruct (Z.ltb_spec (r mod 8) 0); [ lia | ].
  destruct (nth_error N8 (Z.to_nat (r mod 8))) as [d|] eqn:E.
  2: { apply nth_error_None in E. change (length N8) with 8%nat in E. lia. }
  eexists. split; [ reflexivity | ]. apply nth_error_In in E.
  assert (D : Z.abs (fst d) <= 1 /\ Z.abs (snd d) <= 1).
  { cbn in E. repeat (destruct E as [<-|E]; [ cbn; lia | ]). destruct E. }
  unfold clampImageCoords, inner, within. cbn [fst snd].
  pose proof (clamp1_inner (fst p + fst d) (fst size) (fst p) 1 Hx ltac:(lia)).
  pose proof (clamp1_inner (snd p + snd d) (snd size) (snd p) 1 Hy ltac:(lia)). lia.
Qed.

(* ------------------------------------------------------------------ descriptors *)

Lemma count_nonneg {A} (f : A -> bool) l : 0 <= count f l.
Proof. unfold count. lia. Qed.

Lemma differing_count a b : forall w, Z.of_N (differing w a b) = count (fun n => xorb (N.testbit a (N.of_nat n)) (N.testbit b (N.of_nat n))) (seq 0 w).
Proof.
  induction w as [|w IH]; auto. cbn [differing]. replace (S w) with (w + 1)%nat by lia. rewrite seq_app. unfold count in *. rewrite filter_app, app_length, N2Z.inj_add, IH.
  cbn [seq filter Nat.add]. destruct (N.testbit a (N.of_nat w)), (N.testbit b (N.of_nat w)); cbn [xorb Bool.eqb negb length]; lia.
Qed.

Lemma map_fst_combine {A B} : forall (l : list A) (r : list B), length l = length r -> map fst (combine l r) = l.
Proof. induction l as [|a l IH]; intros [|b r]; cbn; intros H; try discriminate; auto. f_equal. apply IH. lia. Qed.

Lemma combine_seq {A} : forall (l : list A) a n v, In (n, v) (combine (seq a (length l)) l) -> nth_error l (n - a) = Some v /\ (a <= n)%nat.
Proof.
  induction l as [|x l IH]; intros a n v; cbn; [ tauto | ]. intros [E|I].
  - injection E as <- <-. rewrite Nat.sub_diag. auto.
  - apply IH in I. destruct I as [E L]. replace (n - a)%nat with (S (n - S a)) by lia. cbn. split; auto. lia.
Qed.

(* bits compared with another descriptor *)
Lemma mismatch_bits vals ref thr e d : length vals = 16%nat -> is_descriptor vals ref thr e ->
  mismatch vals ref thr d = count (fun n => xorb (Z.testbit e (Z.of_nat n)) (Z.testbit d (Z.of_nat n))) (seq 0 16).
Proof.
  intros L [B H]. unfold mismatch.
  transitivity (count (fun nv => xorb (Z.testbit e (Z.of_nat (fst nv))) (Z.testbit d (Z.of_nat (fst nv)))) (combine (seq 0 16) vals)).
  - apply count_ext_in. intros [n v] I. rewrite <- L in I. apply combine_seq in I. rewrite Nat.sub_0_r in I. destruct I as [I _]. cbn [fst snd].
    f_equal. specialize (H n v I). destruct (Z.testbit e (Z.of_nat n)), (Z.ltb_spec thr (Z.abs (v - ref))); auto; [ | exfalso ].
    + assert (thr < Z.abs (v - ref)) by tauto. lia.
    + assert (false = true) by tauto. discriminate.
  - rewrite <- (count_map fst (fun n => xorb (Z.testbit e (Z.of_nat n)) (Z.testbit d (Z.of_nat n)))). rewrite map_fst_combine; auto.
Qed.

Lemma mismatch_hdist vals ref thr e d : length vals = 16%nat -> is_descriptor vals ref thr e -> 0 <= d ->
  exists h, hdist 2 (Z.to_N e) (Z.to_N d) = Some h /\ Z.of_N h = mismatch vals ref thr d.
Proof.
  intros L D Hd. rewrite hdist_differing by lia. eexists. split; [ reflexivity | ]. change (8 * 2)%nat with 16%nat. rewrite differing_count, (mismatch_bits _ _ _ e) by auto.
  apply count_ext_in. intros n _. destruct D as [B _].
  replace (N.testbit (Z.to_N e) (N.of_nat n)) with (Z.testbit e (Z.of_nat n)) by (rewrite <- (Z2N.id e) at 1 by lia; rewrite <- nat_N_Z, N2Z.inj_testbit; auto).
  replace (N.testbit (Z.to_N d) (N.of_nat n)) with (Z.testbit d (Z.of_nat n)) by (rewrite <- (Z2N.id d) at 1 by lia; rewrite <- nat_N_Z, N2Z.inj_testbit; auto).
  reflexivity.
Qed.

Lemma mismatch_own vals ref thr e : length vals = 16%nat -> is_descriptor vals ref thr e -> mismatch vals ref thr e = 0.
Proof.
  intros L D. rewrite (mismatch_bits _ _ _ e) by auto. unfold count. rewrite filter_none; auto. intros n _. apply xorb_nilpotent.
Qed.

Lemma nth_map_zrange {A} (f : Z -> A) d n ch : 0 <= ch < n -> nth (Z.to_nat ch) (map f (zrange 0 n)) d = f ch.
Proof.
  intros H. rewrite (nth_indep _ d (f 0)) by (rewrite map_length; unfold zrange; rewrite zseq_length; lia).
  rewrite map_nth. unfold zrange. rewrite nth_zseq by lia. f_equal. lia.
Qed.
Lemma combine_map {A B C} (f : A -> B) (g : A -> C) l : combine (map f l) (map g l) = map (fun a => (f a, g a)) l.
Proof. induction l; cbn; congruence. Qed.

Section Run.
  Context (c : config) (rnd : nat -> Z) (size : Z * Z) (Hrnd : forall k, 0 <= rnd k) (Hn : (0 < samples c)%nat) (Hc : 0 < channels c).
  Notation k := (channels c).

  Lemma value_range p ch : in_image size p -> 0 <= ch < k -> 0 <= place size p * k + ch < total c size.
  Proof. intros Hp H. pose proof (place_range size p Hp). unfold total. split; nia. Qed.

  Lemma lookup_around img q ch : inner size q -> 0 <= ch < k -> lookup c size img q ch = Some (around k size img q ch).
  Proof.
    intros Hq H. unfold lookup.
    rewrite (all_map _ (fun n => value k size img (fst q + nth n off_x 0, snd q + nth n off_y 0) ch)).
    - unfold around. reflexivity.
    - intros n I. apply in_seq in I. destruct (off_bounds n ltac:(lia)) as (_ & Bx & By).
      set (r := (fst q + nth n off_x 0, snd q + nth n off_y 0)).
      replace ((snd q + nth n off_y 0) * (fst size * k) + (fst q + nth n off_x 0) * k + ch) with (place size r * k + ch).
      2: { unfold place, r. cbn [fst snd]. ring. }
      rewrite get_in; [ reflexivity | ]. apply value_range; auto. unfold in_image, r. cbn [fst snd]. unfold inner in Hq. lia.
  Qed.

  Lemma around_register img q ch : byte_image img -> register (around k size img q ch).
  Proof.
    intros B. split; [ reflexivity | ]. unfold around. apply Forall_map. apply Forall_forall. intros o _. unfold value, byte. specialize (B ((fst size * snd (fst q + fst o, snd q + snd o) + fst (fst q + fst o, snd q + snd o)) * k + ch)). lia.
  Qed.

  Lemma texture_around img q ch ref : byte_image img -> 0 <= ref <= 255 ->
    exists e, texture c (around k size img q ch) ref = Some e /\ is_descriptor (around k size img q ch) ref (lut_of c ref) e.
  Proof. intros B R. apply thr_scalar_ok; [ apply around_register; auto | unfold byte; lia ]. Qed.

  (* ------------------------------------------------------------------ states *)

  Definition colour_at (st : state) (s : nat) (p : Z * Z) (ch : Z) : Z := col st s (place size p * k + ch).
  Definition texture_at (st : state) (s : nat) (p : Z * Z) (ch : Z) : Z := dsc st s (place size p * k + ch).
  Record sound (st : state) : Prop := {
    s_col : forall s i, 0 <= col st s i <= 255;
    s_dsc : forall s i, 0 <= dsc st s i < 2 ^ 16;
    s_seen : byte_image (seen st) }.

  Lemma tick_sound st : sound st -> sound (tick st).
  Proof. intros [A B C]. split; auto. Qed.

  Lemma store_at m s p v s' p' ch : Z.of_nat (length v) = k -> in_image size p -> in_image size p' -> 0 <= ch < k ->
    (s' = s /\ p' = p /\ store_list m s (place size p * k) v s' (place size p' * k + ch) = nth (Z.to_nat ch) v 0) \/
    ((s', p') <> (s, p) /\ store_list m s (place size p * k) v s' (place size p' * k + ch) = m s' (place size p' * k + ch)).
  Proof.
    intros L Hp Hp' H. unfold store_list, inside_buf. rewrite L. destruct (Nat.eqb_spec s' s) as [->|N]; cbn [andb].
    2: { right. split; auto. congruence. }
    destruct (Z.leb_spec 0 (place size p' * k + ch - place size p * k)), (Z.ltb_spec (place size p' * k + ch - place size p * k) k); cbn [andb].
    - left. assert (E : place size p' = place size p) by nia. repeat split; auto. { eapply place_inj; eauto. } rewrite E. f_equal. lia.
    - right. split; auto. intros E. injection E as ->. lia.
    - right. split; auto. intros E. injection E as ->. lia.
    - right. split; auto. intros E. injection E as ->. lia.
  Qed.

  Lemma store_range (P : Z -> Prop) m s b v : P 0 -> (forall s i, P (m s i)) -> Forall P v -> forall s' i, P (store_list m s b v s' i).
  Proof.
    intros P0 M F s' i. unfold store_list. destruct (_ && _); auto. destruct (Nat.lt_ge_cases (Z.to_nat (i - b)) (length v)).
    - rewrite Forall_forall in F. apply F, nth_In. auto.
    - rewrite nth_overflow; auto.
  Qed.

  Record written (st : state) (s : nat) (p : Z * Z) (v d : list Z) (st' : state) : Prop := {
    w_here : forall ch, 0 <= ch < k -> colour_at st' s p ch = nth (Z.to_nat ch) v 0 /\ texture_at st' s p ch = nth (Z.to_nat ch) d 0;
    w_other : forall s' p', in_image size p' -> (s', p') <> (s, p) -> forall ch, 0 <= ch < k -> colour_at st' s' p' ch = colour_at st s' p' ch /\ texture_at st' s' p' ch = texture_at st s' p' ch;
    w_seen : seen st' = seen st;
    w_mask : fgmask st' = fgmask st;
    w_used : used st' = used st;
    w_sound : sound st -> Forall (fun x => 0 <= x <= 255) v -> Forall (fun x => 0 <= x < 2 ^ 16) d -> sound st' }.

  Lemma write_ok st s p v d : Z.of_nat (length v) = k -> Z.of_nat (length d) = k -> in_image size p ->
    exists st', write c size s (place size p * k) v d st = Some st' /\ written st s p v d st'.
  Proof.
    intros Lv Ld Hp. unfold write. pose proof (place_range size p Hp) as R.
    destruct (Z.leb_spec 0 (place size p * k)); [ cbn [andb] | nia ]. rewrite Lv.
    destruct (Z.leb_spec (place size p * k + k) (total c size)); [ | unfold total in *; nia ].
    eexists. split; [ reflexivity | ]. split; cbn [seen fgmask used]; auto.
    - intros ch Hch. unfold colour_at, texture_at. cbn [col dsc].
      destruct (store_at (col st) s p v s p ch Lv Hp Hp Hch) as [(_ & _ & ->)|(N & _)]; [ | congruence ].
      destruct (store_at (dsc st) s p d s p ch Ld Hp Hp Hch) as [(_ & _ & ->)|(N & _)]; [ auto | congruence ].
    - intros s' p' Hp' N ch Hch. unfold colour_at, texture_at. cbn [col dsc].
      destruct (store_at (col st) s p v s' p' ch Lv Hp Hp' Hch) as [(-> & -> & _)|(_ & ->)]; [ congruence | ].
      destruct (store_at (dsc st) s p d s' p' ch Ld Hp Hp' Hch) as [(-> & -> & _)|(_ & ->)]; [ congruence | auto ].
    - intros [A B C] Fv Fd. split; cbn [col dsc seen]; auto.
      + apply (store_range (fun x => 0 <= x <= 255)); auto. lia.
      + apply (store_range (fun x => 0 <= x < 2 ^ 16)); auto. lia.
  Qed.

  (* values and descriptors of a point of an image, as lists *)
  Lemma signature img q : byte_image img -> inner size q ->
    exists v d, all (map (fun ch => get (total c size) img (place size q * k + ch)) (zrange 0 k)) = Some v /\
      all (map (lookup c size img q) (zrange 0 k)) = Some (map (around k size img q) (zrange 0 k)) /\
      all (map (fun ch => bind (lookup c size img q ch) (fun vals => texture c vals (nth (Z.to_nat ch) v 0))) (zrange 0 k)) = Some d /\
      all (map (fun cv => texture c (snd cv) (fst cv)) (combine v (map (around k size img q) (zrange 0 k)))) = Some d /\
      v = map (value k size img q) (zrange 0 k) /\
      Z.of_nat (length v) = k /\ Z.of_nat (length d) = k /\ Forall (fun x => 0 <= x <= 255) v /\ Forall (fun x => 0 <= x < 2 ^ 16) d /\
      taken k (lut_of c) size img q (fun ch => nth (Z.to_nat ch) v 0) (fun ch => nth (Z.to_nat ch) d 0).
  Proof.
    intros B Hq. set (tex ch := match texture c (around k size img q ch) (value k size img q ch) with Some e => e | None => 0 end).
    assert (T : forall ch, texture c (around k size img q ch) (value k size img q ch) = Some (tex ch) /\ is_descriptor (around k size img q ch) (value k size img q ch) (lut_of c (value k size img q ch)) (tex ch)).
    { intros ch. unfold tex. destruct (texture_around img q ch (value k size img q ch) B (B _)) as (e & -> & D). auto. }
    exists (map (value k size img q) (zrange 0 k)), (map tex (zrange 0 k)).
    assert (I : forall ch, In ch (zrange 0 k) -> 0 <= ch < k) by (intros ch X; apply in_zrange in X; lia).
    assert (L : forall f : Z -> Z, Z.of_nat (length (map f (zrange 0 k))) = k) by (intros f; rewrite map_length; unfold zrange; rewrite zseq_length; lia).
    split; [ | split; [ | split; [ | split ] ] ].
    - apply all_map. intros ch X. rewrite get_in; [ reflexivity | ]. apply value_range; auto. apply inner_image; auto.
    - apply all_map. intros ch X. apply lookup_around; auto.
    - apply all_map. intros ch X. rewrite lookup_around by auto. cbn [bind]. rewrite nth_map_zrange by auto. apply T.
    - rewrite combine_map, map_map. cbn [fst snd]. apply all_map. intros ch _. apply T.
    - split; auto. split; auto. split; auto. split; [ | split ].
      + apply Forall_map, Forall_forall. intros ch _. apply B.
      + apply Forall_map, Forall_forall. intros ch _. apply (T ch).
      + intros ch X. rewrite !nth_map_zrange by auto. split; auto. destruct (T ch) as [_ D]. split; [ apply D | ]. apply mismatch_own; auto.
  Qed.

  (* ------------------------------------------------------------------ refreshing *)

  Definition same (st st' : state) (s : nat) (p : Z * Z) : Prop :=
    forall ch, 0 <= ch < k -> colour_at st' s p ch = colour_at st s p ch /\ texture_at st' s p ch = texture_at st s p ch.
  (* the sample holds what was at a point not more than 3 away, which may be asked not to be foreground *)
  Definition drawn (force : bool) (mask : Z -> bool) (img : Z -> Z) (st : state) (s : nat) (p : Z * Z) : Prop :=
    exists q, inner size q /\ within 3 p q /\ (force = true \/ mask (place size q) = false) /\ taken k (lut_of c) size img q (colour_at st s p) (texture_at st s p).

  Lemma taken_ext img q b d b' d' : (forall ch, 0 <= ch < k -> b' ch = b ch /\ d' ch = d ch) -> taken k (lut_of c) size img q b d -> taken k (lut_of c) size img q b' d'.
  Proof. intros H T ch Hch. destruct (H ch Hch) as [-> ->]. auto. Qed.
  Lemma drawn_same force mask img st st' s p : same st st' s p -> drawn force mask img st s p -> drawn force mask img st' s p.
  Proof. intros S (q & A & B & C & D). exists q. do 3 (split; auto). eapply taken_ext; [ | exact D ]. auto. Qed.
  Lemma same_refl st s p : same st st s p. Proof. split; reflexivity. Qed.
  Lemma same_trans a b d s p : same a b s p -> same b d s p -> same a d s p.
  Proof. intros H G ch Hch. destruct (H ch Hch), (G ch Hch). split; congruence. Qed.

  Lemma refresh_one_ok force p st n : sound st -> inner size p -> exists st', refresh_one c rnd size force (place size p) st n = Some st' /\
    sound st' /\ seen st' = seen st /\ fgmask st' = fgmask st /\ used st' = S (used st) /\
    (forall s' p', in_image size p' -> same st st' s' p' \/ ((s', p') = (Nat.modulo n (samples c), p) /\ drawn force (fgmask st) (seen st) st' s' p')) /\
    (force = true -> drawn force (fgmask st) (seen st) st' (Nat.modulo n (samples c)) p).
  Proof.
    intros Hs Hp. unfold refresh_one. rewrite (point_place size p) by (apply inner_image; auto).
    destruct (sample_inner (rnd (used st)) p size (Hrnd _) Hp) as [Hq Wq]. set (q := getSamplePosition_7x7_std2 (rnd (used st)) p 2 size) in *.
    destruct (signature (seen st) q (s_seen _ Hs) Hq) as (v & d & -> & _ & -> & _ & _ & Lv & Ld & Fv & Fd & T).
    destruct (write_ok (tick st) (Nat.modulo n (samples c)) p v d Lv Ld (inner_image _ _ Hp)) as (st' & W & [Wh Wo Ws Wm Wu Wsd]).
    assert (D : force = true \/ fgmask st (place size q) = false -> drawn force (fgmask st) (seen st) st' (Nat.modulo n (samples c)) p).
    { intros M. exists q. do 3 (split; auto). eapply taken_ext; [ | exact T ]. auto. }
    assert (K : force = true \/ fgmask st (place size q) = false -> exists st', write c size (Nat.modulo n (samples c)) (place size p * k) v d (tick st) = Some st' /\
      sound st' /\ seen st' = seen st /\ fgmask st' = fgmask st /\ used st' = S (used st) /\
      (forall s' p', in_image size p' -> same st st' s' p' \/ ((s', p') = (Nat.modulo n (samples c), p) /\ drawn force (fgmask st) (seen st) st' s' p')) /\
      (force = true -> drawn force (fgmask st) (seen st) st' (Nat.modulo n (samples c)) p)).
    { intros M. exists st'. split; auto. split; [ apply Wsd; auto; apply tick_sound; auto | ]. do 3 (split; auto). split; auto.
      intros s' p' Hp'. destruct (Nat.eq_dec s' (Nat.modulo n (samples c))) as [->|N].
      - assert (P : p' = p \/ p' <> p).
        { destruct p as [x y], p' as [x' y']. destruct (Z.eq_dec x' x) as [->|]; [ | right; congruence ]. destruct (Z.eq_dec y' y) as [->|]; [ auto | right; congruence ]. }
        destruct P as [->|P]; [ right; auto | left ]. intros ch Hch. apply (Wo _ p' Hp'); auto. congruence.
      - left. intros ch Hch. apply (Wo s' p' Hp'); auto. congruence. }
    destruct force.
    - apply K. auto.
    - rewrite get_in by (apply place_range, inner_image; auto). destruct (fgmask st (place size q)) eqn:M; [ | apply K; auto ].
      eexists. split; [ reflexivity | ]. split; [ apply tick_sound; auto | ]. do 3 (split; auto). split; [ | discriminate ]. intros. left. intros ch Hch. split; reflexivity.
  Qed.

  Lemma refresh_pixel_ok force p : inner size p -> forall ns st, sound st -> exists st', iter (refresh_one c rnd size force (place size p)) ns st = Some st' /\
    sound st' /\ seen st' = seen st /\ fgmask st' = fgmask st /\
    (forall s' p', in_image size p' -> same st st' s' p' \/ (p' = p /\ In s' (map (fun n => Nat.modulo n (samples c)) ns) /\ drawn force (fgmask st) (seen st) st' s' p')) /\
    (force = true -> forall s', In s' (map (fun n => Nat.modulo n (samples c)) ns) -> drawn force (fgmask st) (seen st) st' s' p).
  Proof.
    intros Hp. induction ns as [|n ns IH]; intros st Hs; cbn [iter map].
    - exists st. do 4 (split; auto). split; [ intros; left; apply same_refl | ]. intros _ s' [].
    - destruct (refresh_one_ok force p st n Hs Hp) as (st1 & -> & Hs1 & E1 & M1 & _ & A1 & B1).
      destruct (IH st1 Hs1) as (st2 & -> & Hs2 & E2 & M2 & A2 & B2). exists st2. split; auto. split; auto. split; [ congruence | ]. split; [ congruence | ].
      rewrite E1, M1 in A2, B2. split.
      + intros s' p' Hp'. destruct (A2 s' p' Hp') as [S2|(-> & I & D)]; [ | right; split; auto; split; auto; now right ].
        destruct (A1 s' p' Hp') as [S1|(E & D)]; [ left; eapply same_trans; eauto | ]. injection E as -> ->. right. split; auto. split; [ now left | ]. eapply drawn_same; eauto.
      + intros F s' [<-|I]; [ | auto ]. destruct (A2 (Nat.modulo n (samples c)) p (inner_image _ _ Hp)) as [S2|(_ & _ & D)]; auto.
        eapply drawn_same; [ exact S2 | ]. auto.
  Qed.

  (* the samples whose numbers are in a window *)
  Definition window (start num : nat) : list nat := map (fun n => Nat.modulo n (samples c)) (seq start num).

  Lemma refresh_ok force start num : forall pxs st, sound st -> (forall i, In i pxs -> exists p, inner size p /\ i = place size p) ->
    exists st', refresh c rnd size force start num pxs st = Some st' /\ sound st' /\ seen st' = seen st /\ fgmask st' = fgmask st /\
    (forall s' p', in_image size p' -> same st st' s' p' \/
      (In (place size p') pxs /\ (force = true \/ fgmask st (place size p') = false) /\ In s' (window start num) /\ drawn force (fgmask st) (seen st) st' s' p')) /\
    (force = true -> forall s' p', in_image size p' -> In (place size p') pxs -> In s' (window start num) -> drawn force (fgmask st) (seen st) st' s' p').
  Proof.
    unfold refresh. induction pxs as [|i pxs IH]; intros st Hs Hpx; cbn [iter].
    - exists st. do 4 (split; auto). split; [ intros; left; apply same_refl | ]. intros _ s' p' _ [].
    - destruct (Hpx i (or_introl eq_refl)) as (p & Hp & ->).
      assert (K : exists st1, (match (if force then Some false else get (fst size * snd size) (fgmask st) (place size p)) with
          | None => None | Some true => Some st | Some false => iter (refresh_one c rnd size force (place size p)) (seq start num) st end) = Some st1 /\
        sound st1 /\ seen st1 = seen st /\ fgmask st1 = fgmask st /\
        (forall s' p', in_image size p' -> same st st1 s' p' \/ (p' = p /\ (force = true \/ fgmask st (place size p) = false) /\ In s' (window start num) /\ drawn force (fgmask st) (seen st) st1 s' p')) /\
        (force = true -> forall s', In s' (window start num) -> drawn force (fgmask st) (seen st) st1 s' p)).
      { destruct (refresh_pixel_ok force p Hp (seq start num) st Hs) as (st1 & E & Hs1 & E1 & M1 & A1 & B1).
        assert (force = false \/ force = true) as [->| ->] by (destruct force; auto).
        - rewrite get_in by (apply place_range, inner_image; auto). destruct (fgmask st (place size p)) eqn:M.
          + exists st. do 4 (split; auto). split; [ intros; left; apply same_refl | discriminate ].
          + exists st1. do 4 (split; auto). split; auto. intros s' p' Hp'. destruct (A1 s' p' Hp') as [S|(-> & I & D)]; [ left; exact S | right; split; auto ].
        - exists st1. do 4 (split; auto). split; auto. intros s' p' Hp'. destruct (A1 s' p' Hp') as [S|(-> & I & D)]; [ left; exact S | right; split; auto ]. }
      destruct K as (st1 & -> & Hs1 & E1 & M1 & A1 & B1).
      destruct (IH st1 Hs1 ltac:(intros; apply Hpx; now right)) as (st2 & -> & Hs2 & E2 & M2 & A2 & B2). exists st2. split; auto. split; auto. split; [ congruence | ]. split; [ congruence | ].
      rewrite E1, M1 in A2, B2. split.
      + intros s' p' Hp'. destruct (A2 s' p' Hp') as [S2|(I & F & W & D)]; [ | right; split; [ now right | ]; auto ].
        destruct (A1 s' p' Hp') as [S1|(-> & F & W & D)]; [ left; eapply same_trans; eauto | ]. right. split; [ now left | ]. do 2 (split; auto). eapply drawn_same; eauto.
      + intros F s' p' Hp' I W. destruct (A2 s' p' Hp') as [S2|(_ & _ & _ & D)]; auto. destruct I as [I|I]; [ | auto ].
        apply place_inj in I; auto using inner_image. subst p'. eapply drawn_same; [ exact S2 | ]. auto.
  Qed.

  (* ------------------------------------------------------------------ frames *)

  Context (Hk : k = 1 \/ k = 3).
  Lemma stride_k : stride c = k.
  Proof. unfold stride. destruct Hk as [-> | ->]; reflexivity. Qed.

  Definition resembles (img : Z -> Z) (p : Z * Z) (st : state) (s : nat) : Prop :=
    similar k (colour_threshold c) (texture_threshold c) (lut_of c) size img p (colour_at st s p) (texture_at st s p).

  Lemma channel_ok img p st s ch : byte_image img -> sound st ->
    L1dist 8 (value k size img p ch) (colour_at st s p ch) = Some (Z.abs (value k size img p ch - colour_at st s p ch)) /\
    exists e h, texture c (around k size img p ch) (colour_at st s p ch) = Some e /\ hdist 2 (Z.to_N e) (Z.to_N (texture_at st s p ch)) = Some h /\
      Z.of_N h = mismatch (around k size img p ch) (colour_at st s p ch) (lut_of c (colour_at st s p ch)) (texture_at st s p ch).
  Proof.
    intros B Hs. split; [ apply L1_bytes; [ apply B | apply Hs ] | ].
    destruct (texture_around img p ch (colour_at st s p ch) B (s_col _ Hs _ _)) as (e & E & D).
    destruct (mismatch_hdist (around k size img p ch) _ _ e (texture_at st s p ch) ltac:(unfold around; rewrite map_length; reflexivity) D) as (h & H1 & H2); [ apply Hs | ]. exists e, h. auto.
  Qed.

  Lemma matches_ok img p st s : byte_image img -> sound st ->
    exists m, matches c (map (value k size img p) (zrange 0 k)) (map (around k size img p) (zrange 0 k)) (map (colour_at st s p) (zrange 0 k)) (map (texture_at st s p) (zrange 0 k)) = Some m /\
      (m = true <-> resembles img p st s).
  Proof.
    intros B Hs. unfold matches, resembles, similar.
    destruct (channel_ok img p st s 0 B Hs) as (L0 & e0 & h0 & E0 & H0 & M0).
    destruct (channel_ok img p st s 1 B Hs) as (L1 & e1 & h1 & E1 & H1 & M1).
    destruct (channel_ok img p st s 2 B Hs) as (L2 & e2 & h2 & E2 & H2 & M2).
    destruct Hk as [E|E].
    - replace (zrange 0 k) with [0] by (rewrite E; reflexivity). cbn [map hd]. replace (k =? 1) with true by (rewrite E; reflexivity).
      unfold match1. rewrite L0. cbn [bind]. destruct (Z.ltb_spec (colour_threshold c / 2) (Z.abs (value k size img p 0 - colour_at st s p 0))).
      + exists false. split; auto. split; [ discriminate | lia ].
      + rewrite E0. cbn [bind]. rewrite H0. cbn [bind]. eexists. split; [ reflexivity | ]. rewrite M0. rewrite negb_true_iff, Z.ltb_ge. split; [ auto | tauto ].
    - replace (zrange 0 k) with [0; 1; 2] by (rewrite E; reflexivity). cbn [map combine]. replace (k =? 1) with false by (rewrite E; reflexivity).
      assert (A : forall P : Z -> Prop, (forall ch, 0 <= ch < 3 -> P ch) <-> P 0 /\ P 1 /\ P 2).
      { intros P. split; [ intros H; repeat split; apply H; lia | ]. intros (P0 & P1 & P2) ch Hch. assert (ch = 0 \/ ch = 1 \/ ch = 2) as [-> | [-> | ->]] by lia; auto. }
      cbv zeta. setoid_rewrite (A (fun ch => Z.abs (value k size img p ch - colour_at st s p ch) <= colour_threshold c * 3 / 2 /\
        mismatch (around k size img p ch) (colour_at st s p ch) (lut_of c (colour_at st s p ch)) (texture_at st s p ch) <= texture_threshold c * 3 / 2)).
      clear A. rewrite <- M0, <- M1, <- M2. clear M0 M1 M2. cbn [match3].
      rewrite L0. cbn [bind]. destruct (Z.ltb_spec (colour_threshold c * 3 / 2) (Z.abs (value k size img p 0 - colour_at st s p 0))); [ exists false; split; [ auto | split; [ discriminate | lia ] ] | ].
      rewrite E0. cbn [bind]. rewrite H0. cbn [bind]. destruct (Z.ltb_spec (texture_threshold c * 3 / 2) (Z.of_N h0)); [ exists false; split; [ auto | split; [ discriminate | lia ] ] | ].
      rewrite L1. cbn [bind]. destruct (Z.ltb_spec (colour_threshold c * 3 / 2) (Z.abs (value k size img p 1 - colour_at st s p 1))); [ exists false; split; [ auto | split; [ discriminate | lia ] ] | ].
      rewrite E1. cbn [bind]. rewrite H1. cbn [bind]. destruct (Z.ltb_spec (texture_threshold c * 3 / 2) (Z.of_N h1)); [ exists false; split; [ auto | split; [ discriminate | lia ] ] | ].
      rewrite L2. cbn [bind]. destruct (Z.ltb_spec (colour_threshold c * 3 / 2) (Z.abs (value k size img p 2 - colour_at st s p 2))); [ exists false; split; [ auto | split; [ discriminate | lia ] ] | ].
      rewrite E2. cbn [bind]. rewrite H2. cbn [bind]. destruct (Z.ltb_spec (texture_threshold c * 3 / 2) (Z.of_N h2)); [ exists false; split; [ auto | split; [ discriminate | lia ] ] | ].
      eexists. split; [ reflexivity | ]. rewrite andb_true_iff, !Z.leb_le. lia.
  Qed.

  Lemma good_count_ok img p st : byte_image img -> sound st -> inner size p -> exists f, (forall s, f s = true <-> resembles img p st s) /\
    forall l good, (good <= required c)%nat ->
      good_count c size st (place size p) (map (value k size img p) (zrange 0 k)) (map (around k size img p) (zrange 0 k)) l good =
      Some (Nat.min (required c) (good + length (filter f l))).
  Proof.
    intros B Hs Hp. pose proof (inner_image _ _ Hp) as Ip.
    exists (fun s => match matches c (map (value k size img p) (zrange 0 k)) (map (around k size img p) (zrange 0 k)) (map (colour_at st s p) (zrange 0 k)) (map (texture_at st s p) (zrange 0 k)) with Some m => m | None => false end).
    split. { intros s. destruct (matches_ok img p st s B Hs) as (m & -> & M). exact M. }
    induction l as [|s l IH]; intros good G; cbn [good_count filter].
    - cbn. f_equal. lia.
    - destruct (Nat.ltb_spec good (required c)).
      + rewrite stride_k.
        rewrite (all_map _ (colour_at st s p)). 2: { intros ch I. apply in_zrange in I. rewrite get_in by (apply value_range; auto; lia). reflexivity. }
        rewrite (all_map _ (texture_at st s p)). 2: { intros ch I. apply in_zrange in I. rewrite get_in by (apply value_range; auto; lia). reflexivity. }
        cbn [bind]. destruct (matches_ok img p st s B Hs) as (m & -> & M). cbn [bind].
        destruct m; rewrite IH by lia; f_equal; cbn [length]; lia.
      + f_equal. assert (good = required c) by lia. lia.
  Qed.

  (* the sample holds what is at a point of a frame not more than 1 away *)
  Definition fed (img : Z -> Z) (q : Z * Z) (st : state) (s : nat) (p : Z * Z) : Prop :=
    within 1 p q /\ taken k (lut_of c) size img q (colour_at st s p) (texture_at st s p).
  Lemma fed_same img q st st' s p : same st st' s p -> fed img q st s p -> fed img q st' s p.
  Proof. intros S (A & B). split; auto. eapply taken_ext; [ exact S | exact B ]. Qed.

  Record effect (img : Z -> Z) (p : Z * Z) (st : state) (fg : bool) (st' : state) : Prop := {
    e_sound : sound st';
    e_seen : seen st' = seen st;
    e_fg : fg = false <-> at_least (required c) (resembles img p st) (seq 0 (samples c));
    e_kept : fg = true -> st' = st;
    e_fed : forall s' p', in_image size p' -> same st st' s' p' \/ (fg = false /\ (s' < samples c)%nat /\ inner size p' /\ fed img p st' s' p') }.

  Lemma pair_dec (a b : nat * (Z * Z)) : a = b \/ a <> b.
  Proof.
    destruct a as [s [x y]], b as [s' [x' y']]. destruct (Nat.eq_dec s s'), (Z.eq_dec x x'), (Z.eq_dec y y'); subst; auto; right; congruence.
  Qed.

  Lemma apply_pixel_ok rate img p st : byte_image img -> sound st -> inner size p ->
    exists fg st', apply_pixel c rnd rate size img st (place size p) = Some (fg, st') /\ effect img p st fg st'.
  Proof.
    intros B Hs Hp. pose proof (inner_image _ _ Hp) as Ip. unfold apply_pixel. rewrite stride_k, (point_place size p Ip).
    destruct (signature img p B Hp) as (v & d & Ev & El & _ & Ed & Dv & Lv & Ld & Fv & Fd & T). rewrite Ev, El. cbn [bind].
    destruct (good_count_ok img p st B Hs Hp) as (f & F & G). rewrite <- Dv in G. rewrite (G (seq 0 (samples c)) 0%nat ltac:(lia)). cbn [bind]. rewrite Nat.add_0_l.
    pose proof (at_least_filter f (resembles img p st) (seq 0 (samples c)) (required c) (fun s _ => F s)) as AL.
    destruct (Nat.ltb_spec (Nat.min (required c) (length (filter f (seq 0 (samples c))))) (required c)) as [LT|GE].
    { exists true, st. split; auto. split; auto.
      - rewrite AL. split; [ discriminate | lia ].
      - intros. left. apply same_refl. }
    rewrite Ed. cbn [bind].
    assert (I : forall n, (Z.to_nat (rnd n mod Z.of_nat (samples c)) < samples c)%nat).
    { intros n. pose proof (Z.mod_pos_bound (rnd n) (Z.of_nat (samples c)) ltac:(lia)). lia. }
    assert (W : forall st s q, sound st -> inner size q -> within 1 q p -> exists st', write c size s (place size q * k) v d st = Some st' /\ sound st' /\ seen st' = seen st /\
      forall s' p', in_image size p' -> same st st' s' p' \/ (s' = s /\ inner size p' /\ fed img p st' s' p')).
    { clear st Hs F G AL GE. intros st s q Hs Hq Wq. destruct (write_ok st s q v d Lv Ld (inner_image _ _ Hq)) as (st' & -> & [Wh Wo Ws Wm Wu Wsd]).
      exists st'. split; auto. split; [ auto | ]. split; auto. intros s' p' Hp'. destruct (pair_dec (s', p') (s, q)) as [E|N].
      - injection E as -> ->. right. split; auto. split; auto. split; auto. eapply taken_ext; [ | exact T ]. exact Wh.
      - left. intros ch Hch. apply (Wo s' p' Hp' N ch Hch). }
    (* first update *)
    set (u1 := if rnd (used st) mod rate =? 0 then _ else _).
    assert (U1 : exists st1, u1 = Some st1 /\ sound st1 /\ seen st1 = seen st /\ forall s' p', in_image size p' -> same st st1 s' p' \/ ((s' < samples c)%nat /\ inner size p' /\ fed img p st1 s' p')).
    { subst u1. destruct (rnd (used st) mod rate =? 0).
      - destruct (W (tick (tick st)) (Z.to_nat (rnd (used (tick st)) mod Z.of_nat (samples c))) p) as (st1 & -> & S1 & E1 & A1); auto using tick_sound. { unfold within. lia. }
        exists st1. split; auto. split; auto. split; [ exact E1 | ]. intros s' p' Hp'. destruct (A1 s' p' Hp') as [X|(-> & X)]; [ left; exact X | right; split; auto ].
      - eexists. split; [ reflexivity | ]. split; [ apply tick_sound; auto | ]. split; [ reflexivity | ]. intros. left. intros ch Hch. split; reflexivity. }
    clearbody u1. destruct U1 as (st1 & -> & S1 & E1 & A1). cbn [bind].
    set (u2 := if rnd (used st1) mod rate =? 0 then _ else _).
    assert (U2 : exists st2, u2 = Some st2 /\ sound st2 /\ seen st2 = seen st1 /\ forall s' p', in_image size p' -> same st1 st2 s' p' \/ ((s' < samples c)%nat /\ inner size p' /\ fed img p st2 s' p')).
    { subst u2. destruct (rnd (used st1) mod rate =? 0).
      - destruct (neighbour_inner (rnd (used (tick st1))) p size (Hrnd _) Hp) as (q & -> & Hq & Wq). cbn [bind].
        replace (fst size * k * snd q + k * fst q) with (place size q * k) by (unfold place; ring).
        destruct (W (tick (tick (tick st1))) (Z.to_nat (rnd (used (tick (tick st1))) mod Z.of_nat (samples c))) q) as (st2 & -> & S2 & E2 & A2); auto using tick_sound.
        exists st2. split; auto. split; auto. split; [ exact E2 | ]. intros s' p' Hp'. destruct (A2 s' p' Hp') as [X|(-> & X)]; [ left; exact X | right; split; auto ].
      - eexists. split; [ reflexivity | ]. split; [ apply tick_sound; auto | ]. split; [ reflexivity | ]. intros. left. intros ch Hch. split; reflexivity. }
    clearbody u2. destruct U2 as (st2 & -> & S2 & E2 & A2). cbn [bind]. exists false, st2. split; auto. split; auto.
    - congruence.
    - rewrite AL. split; [ lia | auto ].
    - discriminate.
    - intros s' p' Hp'. destruct (A2 s' p' Hp') as [X2|(L & Y & X2)]; [ | right; auto ].
      destruct (A1 s' p' Hp') as [X1|(L & Y & X1)]; [ left; eapply same_trans; eauto | ]. right. split; auto. split; auto. split; auto. eapply fed_same; eauto.
  Qed.
End Run.
