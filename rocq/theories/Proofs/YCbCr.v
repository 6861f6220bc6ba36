From Coq Require Import ZArith List Lia Bool.
From Verif Require Import Model.Simd Spec.Simd Proofs.Simd Model.YCbCr.
Import ListNotations.
Open Scope Z_scope.

Lemma lor_disjoint n a b : 0 <= n -> 0 <= a < 2^n -> Z.lor a (b * 2^n) = a + b * 2^n.
Proof.
  intros Hn Ha. rewrite <- Z.shiftl_mul_pow2 by auto.
  assert (L : Z.land a (Z.shiftl b n) = 0).
  { apply Z.bits_inj'. intros k Hk. rewrite Z.land_spec, Z.bits_0. destruct (Z_lt_le_dec k n).
    - rewrite Z.shiftl_spec_low by auto. apply andb_false_r.
    - assert (T : Z.testbit a k = false). { destruct (Z.eq_dec a 0) as [->|]; [ apply Z.bits_0 |]. apply Z.bits_above_log2; [ lia |].
        apply Z.lt_le_trans with n; [ apply Z.log2_lt_pow2; lia | lia ]. }
      now rewrite T. }
  rewrite <- Z.lxor_lor by exact L. now rewrite Z.add_nocarry_lxor.
Qed.

Lemma pack1_eq y cr cb : byte y -> byte cr -> byte cb -> pack1 y cr cb = y + 256 * (cr / 16) + 4096 * (cb / 16) /\ 0 <= pack1 y cr cb < 2^16.
Proof.
  unfold byte, pack1. intros Hy Hr Hb. rewrite !Z.shiftl_mul_pow2, !Z.shiftr_div_pow2 by lia.
  change (2^4) with 16. change (2^8) with 256. change (2^12) with 4096.
  assert (0 <= cr / 16 < 16) by (split; [ apply Z.div_pos; lia | apply Z.div_lt_upper_bound; lia ]).
  assert (0 <= cb / 16 < 16) by (split; [ apply Z.div_pos; lia | apply Z.div_lt_upper_bound; lia ]).
  rewrite Z.mod_small by lia. lia.
Qed.
Lemma unpack1_eq p : 0 <= p < 2^16 -> unpack1 p = (p mod 256, 16 * (p / 256 mod 16), 16 * (p / 4096)).
Proof.
  intro H. unfold unpack1. rewrite !Z.shiftl_mul_pow2, !Z.shiftr_div_pow2 by lia. change 15 with (Z.ones 4). rewrite Z.land_ones by lia.
  change (2^4) with 16. change (2^8) with 256. change (2^12) with 4096.
  pose proof (Z.mod_pos_bound (p / 256) 16 ltac:(lia)).
  assert (0 <= p / 4096 < 16) by (split; [ apply Z.div_pos; lia | apply Z.div_lt_upper_bound; lia ]).
  rewrite (Z.mod_small (p / 256 mod 16 * 16)), (Z.mod_small (p / 4096 * 16)) by lia. f_equal; [ f_equal |]; lia.
Qed.
Lemma unpack_pack1 y cr cb : byte y -> byte cr -> byte cb -> unpack1 (pack1 y cr cb) = (y, 16 * (cr / 16), 16 * (cb / 16)).
Proof.
  intros Hy Hr Hb. destruct (pack1_eq y cr cb Hy Hr Hb) as [E R]. rewrite unpack1_eq by auto. rewrite E. clear E R. unfold byte in *.
  assert (0 <= cr / 16 < 16) by (split; [ apply Z.div_pos; lia | apply Z.div_lt_upper_bound; lia ]).
  assert (0 <= cb / 16 < 16) by (split; [ apply Z.div_pos; lia | apply Z.div_lt_upper_bound; lia ]).
  set (a := cr / 16) in *. set (b := cb / 16) in *. clearbody a b.
  assert (E1 : (y + 256 * a + 4096 * b) mod 256 = y) by (symmetry; apply (Z.mod_unique _ _ (a + 16 * b)); lia).
  assert (E2 : (y + 256 * a + 4096 * b) / 256 = a + 16 * b) by (symmetry; apply (Z.div_unique _ _ _ y); lia).
  assert (E3 : (y + 256 * a + 4096 * b) / 4096 = b) by (symmetry; apply (Z.div_unique _ _ _ (y + 256 * a)); lia).
  rewrite E1, E2, E3. assert (E4 : (a + 16 * b) mod 16 = a) by (symmetry; apply (Z.mod_unique _ _ b); lia). rewrite E4. reflexivity.
Qed.
Lemma pack_unpack1 p : 0 <= p < 2^16 -> let '(y, cr, cb) := unpack1 p in pack1 y cr cb = p.
Proof.
  intro H. rewrite unpack1_eq by auto.
  pose proof (Z.mod_pos_bound p 256 ltac:(lia)). pose proof (Z.mod_pos_bound (p / 256) 16 ltac:(lia)).
  assert (0 <= p / 4096 < 16) by (split; [ apply Z.div_pos; lia | apply Z.div_lt_upper_bound; lia ]).
  destruct (pack1_eq (p mod 256) (16 * (p / 256 mod 16)) (16 * (p / 4096))) as [E _]; try (unfold byte; lia). rewrite E.
  rewrite !(Z.mul_comm 16), !Z.div_mul by lia. pose proof (Z.div_mod p 256 ltac:(lia)). pose proof (Z.div_mod (p / 256) 16 ltac:(lia)) as D.
  rewrite Z.div_div in D by lia. change (256 * 16) with 4096 in D. lia.
Qed.

(** vector path *)
Definition zext (l : list Z) : reg := pairs (map (fun b => (b, 0)) l).
Lemma unpack_zext low r : register r -> unpack_8ui_to_16ui low r = zext (if low then firstn 8 r else skipn 8 r).
Proof. intro H. explode r H. destruct low; reflexivity. Qed.
Lemma zext_len l : length (map (fun b : Z => (b, 0)) l) = length l. Proof. apply map_length. Qed.

Lemma pack_lanes l : (length l <= 16)%nat -> Forall (fun t => byte (fst (fst t)) /\ byte (snd (fst t)) /\ byte (snd t)) l ->
  lanes 2 (or_si128 (zext (map (fun t => fst (fst t)) l))
     (or_si128 (slli_epi16 (srli_epi16 (zext (map (fun t => snd (fst t)) l)) 4) 8)
               (slli_epi16 (srli_epi16 (zext (map (fun t : Z * Z * Z => snd t) l)) 4) 12)))
  = map (fun t => pack1 (fst (fst t)) (snd (fst t)) (snd t)) l.
Proof.
  intros Hl F. unfold slli_epi16, srli_epi16, lanemap, zext.
  rewrite !lanes2_pairs by (rewrite !map_length; lia). rewrite !lanes2_unlanes by (rewrite !map_length; lia). rewrite !unlanes2, !map_map. cbn [fst snd].
  assert (E : or_si128 (pairs (map (fun x : Z * Z * Z => (fst (fst x), 0)) l))
     (or_si128 (pairs (map (fun x : Z * Z * Z => (((snd (fst x) + 256 * 0) / 2 ^ 4) mod 2 ^ 16 * 2 ^ 8 mod 256, ((snd (fst x) + 256 * 0) / 2 ^ 4) mod 2 ^ 16 * 2 ^ 8 / 256 mod 256)) l))
        (pairs (map (fun x : Z * Z * Z => (((snd x + 256 * 0) / 2 ^ 4) mod 2 ^ 16 * 2 ^ 12 mod 256, ((snd x + 256 * 0) / 2 ^ 4) mod 2 ^ 16 * 2 ^ 12 / 256 mod 256)) l)))
    = pairs (map (fun t => (fst (fst t), snd (fst t) / 16 + 16 * (snd t / 16))) l)).
  { clear Hl. unfold or_si128, pairs. induction F as [|[[y cr] cb] l (Hy & Hr & Hb) F IH]; [ reflexivity |].
    cbn [map flat_map app map2 fst snd] in *. rewrite IH. rewrite !Z.mul_0_r, !Z.add_0_r. unfold byte in *.
    change (2^4) with 16. change (2^8) with 256. change (2^12) with 4096. change (2^16) with 65536.
    assert (0 <= cr / 16 < 16) by (split; [ apply Z.div_pos; lia | apply Z.div_lt_upper_bound; lia ]).
    assert (0 <= cb / 16 < 16) by (split; [ apply Z.div_pos; lia | apply Z.div_lt_upper_bound; lia ]).
    rewrite (Z.mod_small (cr / 16)), (Z.mod_small (cb / 16)) by lia.
    assert (A1 : cr / 16 * 256 mod 256 = 0) by (apply Z.mod_mul; lia).
    assert (A2 : cr / 16 * 256 / 256 mod 256 = cr / 16) by (rewrite Z.div_mul by lia; apply Z.mod_small; lia).
    assert (A3 : cb / 16 * 4096 mod 256 = 0) by (replace (cb / 16 * 4096) with (cb / 16 * 16 * 256) by ring; apply Z.mod_mul; lia).
    assert (A4 : cb / 16 * 4096 / 256 mod 256 = cb / 16 * 16).
    { replace (cb / 16 * 4096) with (cb / 16 * 16 * 256) by ring. rewrite Z.div_mul by lia. apply Z.mod_small. lia. }
    rewrite A1, A2, A3, A4. rewrite !Z.lor_0_r, Z.lor_0_l. do 2 f_equal.
    change 16 with (2^4) at 3. rewrite lor_disjoint by lia. change (2^4) with 16. lia. }
  rewrite E. rewrite lanes2_pairs by (rewrite map_length; lia). rewrite map_map. apply map_ext_in. intros [[y cr] cb] Hin.
  rewrite Forall_forall in F. destruct (F _ Hin) as (Hy & Hr & Hb). cbn [fst snd] in *. destruct (pack1_eq y cr cb Hy Hr Hb) as [-> _]. ring.
Qed.

Fixpoint tri (y cr cb : list Z) : list (Z * Z * Z) :=
  match y, cr, cb with a :: y', b :: cr', c :: cb' => (a, b, c) :: tri y' cr' cb' | _, _, _ => [] end.
Lemma zip3_tri y cr cb : zip3 y cr cb = map (fun t => pack1 (fst (fst t)) (snd (fst t)) (snd t)) (tri y cr cb).
Proof. revert cr cb. induction y; intros [|] [|]; cbn; auto. now rewrite IHy. Qed.
Lemma tri_proj y cr cb : length y = length cr -> length cr = length cb ->
  map (fun t => fst (fst t)) (tri y cr cb) = y /\ map (fun t => snd (fst t)) (tri y cr cb) = cr /\ map (fun t : Z * Z * Z => snd t) (tri y cr cb) = cb.
Proof.
  revert cr cb. induction y as [|a y IH]; intros [|b cr] [|c cb] L1 L2; cbn in *; try discriminate; auto.
  injection L1 as L1. injection L2 as L2. destruct (IH cr cb L1 L2) as (-> & -> & ->). auto.
Qed.
Lemma tri_bytes y cr cb : Forall byte y -> Forall byte cr -> Forall byte cb ->
  Forall (fun t => byte (fst (fst t)) /\ byte (snd (fst t)) /\ byte (snd t)) (tri y cr cb).
Proof.
  intro Fy. revert cr cb. induction Fy; intros cr cb Fr Fb; [ constructor |]. destruct Fr; [ constructor |]. destruct Fb; cbn; constructor; auto.
Qed.
Lemma tri_len y cr cb : length y = length cr -> length cr = length cb -> length (tri y cr cb) = length y.
Proof. intros A B. destruct (tri_proj y cr cb A B) as (E & _). apply (f_equal (@length Z)) in E. now rewrite map_length in E. Qed.
Lemma tri_app y1 y2 cr1 cr2 cb1 cb2 : length y1 = length cr1 -> length cr1 = length cb1 ->
  tri (y1 ++ y2) (cr1 ++ cr2) (cb1 ++ cb2) = tri y1 cr1 cb1 ++ tri y2 cr2 cb2.
Proof.
  revert cr1 cb1. induction y1 as [|a y IH]; intros [|b cr] [|c cb] L1 L2; cbn in *; try discriminate; auto.
  injection L1 as L1. injection L2 as L2. now rewrite IH.
Qed.
Lemma zip3_app y1 y2 cr1 cr2 cb1 cb2 : length y1 = length cr1 -> length cr1 = length cb1 ->
  zip3 (y1 ++ y2) (cr1 ++ cr2) (cb1 ++ cb2) = zip3 y1 cr1 cb1 ++ zip3 y2 cr2 cb2.
Proof. intros. now rewrite !zip3_tri, tri_app, map_app. Qed.

Lemma half_pack y cr cb : (length y <= 16)%nat -> length y = length cr -> length cr = length cb -> Forall byte y -> Forall byte cr -> Forall byte cb ->
  lanes 2 (or_si128 (zext y) (or_si128 (slli_epi16 (srli_epi16 (zext cr) 4) 8) (slli_epi16 (srli_epi16 (zext cb) 4) 12))) = zip3 y cr cb.
Proof.
  intros Hl L1 L2 Fy Fr Fb. destruct (tri_proj y cr cb L1 L2) as (Ey & Er & Eb).
  rewrite zip3_tri. rewrite <- pack_lanes; [ now rewrite Ey, Er, Eb | rewrite tri_len; auto | now apply tri_bytes ].
Qed.
Lemma Forall_firstn {A} (P : A -> Prop) n l : Forall P l -> Forall P (firstn n l).
Proof. intro F. revert n. induction F; intros [|n]; cbn; constructor; auto. Qed.
Lemma Forall_skipn {A} (P : A -> Prop) n l : Forall P l -> Forall P (skipn n l).
Proof. intro F. revert n. induction F; intros [|n]; cbn; auto. Qed.

Lemma pack_sse2_ok y cr cb : register y -> register cr -> register cb ->
  let '(lo, hi) := pack_sse2 y cr cb in lanes 2 lo ++ lanes 2 hi = zip3 y cr cb.
Proof.
  intros Hy Hr Hb. unfold pack_sse2. rewrite !unpack_zext by auto. cbv iota. destruct Hy as [Ly Fy], Hr as [Lr Fr], Hb as [Lb Fb].
  rewrite !half_pack by (rewrite ?firstn_length, ?skipn_length, ?Ly, ?Lr, ?Lb; try reflexivity; try (cbn; lia); (apply Forall_firstn || apply Forall_skipn); auto).
  rewrite <- zip3_app by (rewrite !firstn_length, ?Ly, ?Lr, ?Lb; reflexivity). now rewrite !firstn_skipn.
Qed.
Lemma pack_row_ok fuel : forall y cr cb, length y = length cr -> length cr = length cb -> Forall byte y -> Forall byte cr -> Forall byte cb ->
  pack_row fuel y cr cb = zip3 y cr cb.
Proof.
  induction fuel as [|f IH]; intros y cr cb L1 L2 Fy Fr Fb; cbn [pack_row]; auto. destruct (Nat.leb_spec 16 (length y)) as [H|H]; auto.
  pose proof (pack_sse2_ok (firstn 16 y) (firstn 16 cr) (firstn 16 cb)) as P. destruct (pack_sse2 _ _ _) as [lo hi].
  rewrite app_assoc, P by (split; [ rewrite firstn_length; lia | now apply Forall_firstn ]).
  rewrite IH by (rewrite ?skipn_length; try lia; now apply Forall_skipn).
  rewrite <- zip3_app by (rewrite !firstn_length; lia). now rewrite !firstn_skipn.
Qed.

(** unpacking *)
Definition u16 (x : Z) := 0 <= x < 2^16.
Lemma and_mask l m : 0 <= m < 256 -> and_si128 (unlanes 2 l) (unlanes 2 (repeat (m mod 2^16) (length l))) = unlanes 2 (map (fun x => Z.land (x mod 256) m) l).
Proof.
  intro Hm. rewrite !unlanes2. rewrite (Z.mod_small m) by lia. unfold and_si128, pairs. induction l as [|x l IH]; [ reflexivity |].
  cbn [length repeat map flat_map app map2 fst snd] in *. rewrite IH. rewrite (Z.mod_small m), (Z.div_small m) by lia.
  assert (L : 0 <= Z.land (x mod 256) m < 256).
  { split; [ apply Z.land_nonneg; lia |]. destruct (Z.eq_dec (Z.land (x mod 256) m) 0) as [->|N]; [ lia |].
    assert (0 <= Z.land (x mod 256) m) by (apply Z.land_nonneg; lia). change 256 with (2^8) at 2. apply Z.log2_lt_pow2; [ lia |].
    eapply Z.le_lt_trans; [ apply Z.log2_land; [ apply Z.mod_pos_bound; lia | lia ] |].
    apply Z.min_lt_iff. right. destruct (Z.eq_dec m 0) as [->|]; [ reflexivity | apply Z.log2_lt_pow2; lia ]. }
  rewrite (Z.mod_small (Z.land (x mod 256) m)), (Z.div_small (Z.land (x mod 256) m)) by lia. change (0 mod 256) with 0. rewrite Z.land_0_r. reflexivity.
Qed.
Lemma sat_u8_small x : 0 <= x < 256 -> sat_u8 x = x.
Proof. intro. unfold sat_u8. destruct (Z.ltb_spec x (2^15)); [| lia ]. destruct (Z.ltb_spec x 0); [ lia |]. destruct (Z.ltb_spec 255 x); lia. Qed.

Lemma unpack_half l : length l = 8%nat -> Forall u16 l ->
  map sat_u8 (lanes 2 (and_si128 (unlanes 2 l) (set1_epi16 255))) = map (fun p => fst (fst (unpack1 p))) l /\
  map sat_u8 (lanes 2 (slli_epi16 (and_si128 (srli_epi16 (unlanes 2 l) 8) (set1_epi16 15)) 4)) = map (fun p => snd (fst (unpack1 p))) l /\
  map sat_u8 (lanes 2 (slli_epi16 (srli_epi16 (unlanes 2 l) 12) 4)) = map (fun p => snd (unpack1 p)) l.
Proof.
  intros L F. unfold slli_epi16, srli_epi16, lanemap, set1_epi16. rewrite !(lanes2_unlanes l) by lia.
  assert (B : forall p, In p l -> u16 p) by (now apply Forall_forall).
  assert (Lm : 8%nat = length (map (fun x : Z => x / 2 ^ 8) (map (fun x : Z => x mod 2 ^ 16) l))) by (now rewrite !map_length).
  split; [| split ].
  - rewrite <- L, and_mask by lia. rewrite lanes2_unlanes by (rewrite map_length; lia). rewrite !map_map. apply map_ext_in. intros p Hp.
    specialize (B p Hp). rewrite unpack1_eq by exact B. cbn [fst]. change 255 with (Z.ones 8). rewrite Z.land_ones by lia. change (2^8) with 256.
    pose proof (Z.mod_pos_bound p 256 ltac:(lia)). rewrite Z.mod_mod by lia. rewrite (Z.mod_small (p mod 256)) by lia. now apply sat_u8_small.
  - rewrite Lm, and_mask by lia. rewrite (lanes2_unlanes (map (fun x => Z.land _ 15) _)) by (rewrite !map_length; lia).
    rewrite lanes2_unlanes by (rewrite !map_length; lia). rewrite !map_map. apply map_ext_in. intros p Hp.
    specialize (B p Hp). rewrite unpack1_eq by exact B. cbn [fst snd]. change 15 with (Z.ones 4). rewrite Z.land_ones by lia.
    change (2^8) with 256. change (2^4) with 16. rewrite (Z.mod_small p) by exact B.
    assert (0 <= p / 256 < 256) by (unfold u16 in B; split; [ apply Z.div_pos; lia | apply Z.div_lt_upper_bound; lia ]).
    rewrite (Z.mod_small (p / 256)) by lia. pose proof (Z.mod_pos_bound (p / 256) 16 ltac:(lia)).
    rewrite (Z.mod_small (p / 256 mod 16) (2^16)) by lia. rewrite Z.mod_small by lia. rewrite sat_u8_small by lia. lia.
  - rewrite (lanes2_unlanes (map _ (map _ l))) by (rewrite !map_length; lia). rewrite lanes2_unlanes by (rewrite !map_length; lia). rewrite !map_map. apply map_ext_in. intros p Hp.
    specialize (B p Hp). rewrite unpack1_eq by exact B. cbn [snd]. rewrite (Z.mod_small p) by exact B. change (2^12) with 4096. change (2^4) with 16.
    assert (0 <= p / 4096 < 16) by (unfold u16 in B; split; [ apply Z.div_pos; lia | apply Z.div_lt_upper_bound; lia ]).
    rewrite (Z.mod_small (p / 4096)) by lia. rewrite Z.mod_small by lia. rewrite sat_u8_small by lia. lia.
Qed.
Lemma combine_maps {A B C D} (f : A -> B) (g : A -> C) (h : A -> D) l :
  combine (combine (map f l) (map g l)) (map h l) = map (fun x => (f x, g x, h x)) l.
Proof. induction l; cbn; auto. now rewrite IHl. Qed.
Lemma unpack_row_ok fuel : forall p, Forall u16 p -> unpack_row fuel p = map unpack1 p.
Proof.
  induction fuel as [|f IH]; intros p F; cbn [unpack_row]; auto. destruct (Nat.leb_spec 16 (length p)) as [H|H]; auto.
  unfold unpack_sse2, packus_epi16. rewrite !map_app.
  set (a := firstn 8 p). set (b := firstn 8 (skipn 8 p)).
  destruct (unpack_half a) as (A1 & A2 & A3); [ unfold a; rewrite firstn_length; lia | now apply Forall_firstn |].
  destruct (unpack_half b) as (B1 & B2 & B3); [ unfold b; rewrite firstn_length, skipn_length; lia | now apply Forall_firstn, Forall_skipn |].
  rewrite A1, A2, A3, B1, B2, B3, <- !map_app, combine_maps. rewrite IH by now apply Forall_skipn.
  assert (E : p = (a ++ b) ++ skipn 16 p).
  { unfold a, b. rewrite <- (firstn_skipn 8 p) at 1. rewrite <- app_assoc. f_equal. rewrite <- (firstn_skipn 8 (skipn 8 p)) at 1. f_equal.
    clear. do 8 (destruct p as [|? p]; [ reflexivity |]). reflexivity. }
  transitivity (map unpack1 ((a ++ b) ++ skipn 16 p)); [| now rewrite <- E ]. rewrite (map_app unpack1 (a ++ b)).
  assert (X : forall l, map (fun x => (fst (fst (unpack1 x)), snd (fst (unpack1 x)), snd (unpack1 x))) l = map unpack1 l).
  { intro l. apply map_ext. intro q. destruct (unpack1 q) as [[? ?] ?]. reflexivity. }
  now rewrite X.
Qed.
