From Coq Require Import ZArith List Lia Bool.
From Verif Require Import Model.Simd Spec.Simd.
Import ListNotations.
Open Scope Z_scope.

Ltac explode r H :=
  destruct H as [?L H]; do 16 (destruct r as [|? r]; [ discriminate |]); destruct r; [| discriminate ]; clear L;
  repeat match goal with X : Forall _ (_ :: _) |- _ => inversion X; subst; clear X | X : Forall _ [] |- _ => clear X end;
  unfold byte in *.

Lemma le_unle n x : le (unle n x) = x mod 256 ^ Z.of_nat n.
Proof.
  revert x. induction n as [|n IH]; intro x.
  - cbn. now rewrite Z.mod_1_r.
  - cbn [unle le]. rewrite IH, Nat2Z.inj_succ, Z.pow_succ_r by lia.
    rewrite Z.rem_mul_r by (try lia; apply Z.pow_pos_nonneg; lia). reflexivity.
Qed.
Lemma unle_mod n x : unle n (x mod 256 ^ Z.of_nat n) = unle n x.
Proof.
  revert x. induction n as [|n IH]; intro x; auto.
  cbn [unle]. rewrite Nat2Z.inj_succ, Z.pow_succ_r by lia.
  assert (P : 0 < 256 ^ Z.of_nat n) by (apply Z.pow_pos_nonneg; lia).
  rewrite Z.rem_mul_r by lia. f_equal.
  - rewrite (Z.mul_comm 256), Z.mod_add, Z.mod_mod by lia. reflexivity.
  - replace ((x mod 256 + 256 * ((x / 256) mod 256 ^ Z.of_nat n)) / 256) with ((x / 256) mod 256 ^ Z.of_nat n); [ apply IH |].
    rewrite (Z.mul_comm 256), Z.div_add by lia. rewrite (Z.div_small (x mod 256)) by (apply Z.mod_pos_bound; lia). lia.
Qed.
Lemma unle_le l : Forall byte l -> unle (length l) (le l) = l.
Proof.
  induction 1 as [|b l Hb Hl IH]; auto. cbn [length unle le]. f_equal.
  - rewrite (Z.mul_comm 256), Z.mod_add by lia. apply Z.mod_small. exact Hb.
  - rewrite (Z.mul_comm 256), Z.div_add by lia. rewrite (Z.div_small b) by exact Hb. exact IH.
Qed.
Lemma unle4 x : unle 4 x = [x mod 256; x / 256 mod 256; x / 256 / 256 mod 256; x / 256 / 256 / 256 mod 256]. Proof. reflexivity. Qed.

Definition w4 (a b c d : Z) : reg := unle 4 a ++ unle 4 b ++ unle 4 c ++ unle 4 d.
Lemma lanes4 a b c d : lanes 4 (w4 a b c d) = [a mod 2^32; b mod 2^32; c mod 2^32; d mod 2^32].
Proof.
  pose proof (le_unle 4 a) as A. pose proof (le_unle 4 b) as B. pose proof (le_unle 4 c) as C. pose proof (le_unle 4 d) as D.
  change (256 ^ Z.of_nat 4) with (2^32) in *. rewrite <- A, <- B, <- C, <- D. reflexivity.
Qed.
Lemma unlanes4 a b c d : unlanes 4 [a; b; c; d] = w4 a b c d. Proof. unfold unlanes, w4. cbn [flat_map]. now rewrite app_nil_r. Qed.
Lemma w4_mod a b c d : w4 (a mod 2^32) (b mod 2^32) (c mod 2^32) (d mod 2^32) = w4 a b c d.
Proof. unfold w4. change (2^32) with (256 ^ Z.of_nat 4). now rewrite !unle_mod. Qed.
Lemma register_w4 r : register r -> r = w4 (word r 0) (word r 1) (word r 2) (word r 3) /\
  (forall i, (i < 4)%nat -> 0 <= word r i < 2^32).
Proof.
  intro H. explode r H. split.
  - unfold w4, word. cbn [Nat.mul Nat.add nth].
    change (?l = unle 4 ?a ++ unle 4 ?b ++ unle 4 ?c ++ unle 4 ?d) with (l = unle 4 a ++ unle 4 b ++ unle 4 c ++ unle 4 d).
    assert (U : forall p q r s, 0 <= p < 256 -> 0 <= q < 256 -> 0 <= r < 256 -> 0 <= s < 256 ->
      unle 4 (p + 2^8 * q + 2^16 * r + 2^24 * s) = [p; q; r; s]).
    { intros p q r' s Hp Hq Hr Hs. replace (p + 2^8 * q + 2^16 * r' + 2^24 * s) with (le [p; q; r'; s]) by (cbn [le]; lia).
      apply (unle_le [p; q; r'; s]). repeat constructor; unfold byte; lia. }
    rewrite !U by lia. reflexivity.
  - intros i Hi. unfold word. do 4 (destruct i as [|i]; [ cbn [Nat.mul Nat.add nth]; lia |]). lia.
Qed.

Lemma signed32_spec x : is_int32_of (signed32 x) x.
Proof.
  unfold is_int32_of, signed32. pose proof (Z.mod_pos_bound x (2^32) ltac:(lia)) as M. pose proof (Z.div_mod x (2^32) ltac:(lia)) as D.
  destruct (Z.ltb_spec (x mod 2^32) (2^31)).
  - split; [ lia |]. replace (x mod 2^32 - x) with ((- (x / 2^32)) * 2^32) by lia. apply Z.mod_mul. lia.
  - split; [ lia |]. replace (x mod 2^32 - 2^32 - x) with ((- (x / 2^32) - 1) * 2^32) by lia. apply Z.mod_mul. lia.
Qed.
Lemma int32_unique z z' w : is_int32_of z w -> is_int32_of z' w -> z = z'.
Proof.
  intros [A B] [A' B']. apply Z.mod_divide in B; [| lia ]. apply Z.mod_divide in B'; [| lia ]. destruct B as [p B], B' as [q B']. lia.
Qed.
Lemma signed32_mod x : signed32 (x mod 2^32) = signed32 x.
Proof. unfold signed32. now rewrite Z.mod_mod by lia. Qed.
Lemma cvt_w4 a b c d : cvtsi128_si32 (w4 a b c d) = signed32 a.
Proof.
  unfold cvtsi128_si32. replace (firstn 4 (w4 a b c d)) with (unle 4 a) by reflexivity.
  rewrite le_unle. change (256 ^ Z.of_nat 4) with (2^32). apply signed32_mod.
Qed.
Lemma lanewise4 f a b c d a' b' c' d' :
  lanewise 4 f (w4 a b c d) (w4 a' b' c' d') =
  w4 (f (a mod 2^32) (a' mod 2^32)) (f (b mod 2^32) (b' mod 2^32)) (f (c mod 2^32) (c' mod 2^32)) (f (d mod 2^32) (d' mod 2^32)).
Proof. unfold lanewise. rewrite !lanes4. cbn [map2]. apply unlanes4. Qed.

(** hsum_8ui *)
Lemma hsum_8ui_ok r : register r -> hsum_8ui r = sum r.
Proof.
  intro H. explode r H. unfold hsum_8ui, sad_epu8, set1_epi8. cbn [repeat map2 firstn skipn].
  change (0 mod 256) with 0. rewrite !Z.sub_0_r, !Z.abs_eq by lia.
  match goal with |- context [unle 8 ?x ++ unle 8 ?y] => set (s1 := x); set (s2 := y) end.
  assert (B1 : 0 <= s1 < 2^12) by (unfold s1; cbn [fold_right]; lia). assert (B2 : 0 <= s2 < 2^12) by (unfold s2; cbn [fold_right]; lia).
  unfold add_epi64, lanewise, srli_si128.
  assert (X : lanes 8 (skipn 8 (unle 8 s1 ++ unle 8 s2) ++ repeat 0 8) = [s2; 0]).
  { transitivity [le (unle 8 s2); le (repeat 0 8)]; [ reflexivity |]. rewrite le_unle. rewrite Z.mod_small; [ reflexivity |].
    change (256 ^ Z.of_nat 8) with (2^64). lia. }
  assert (Y : lanes 8 (unle 8 s1 ++ unle 8 s2) = [s1; s2]).
  { transitivity [le (unle 8 s1); le (unle 8 s2)]; [ reflexivity |]. rewrite !le_unle. change (256 ^ Z.of_nat 8) with (2^64). now rewrite !Z.mod_small by lia. }
  rewrite X, Y. cbn [map2 unlanes flat_map]. unfold cvtsi128_si32.
  match goal with |- context [firstn 4 ?l] => change (firstn 4 l) with (unle 4 (s2 + s1)) end.
  rewrite le_unle. change (256 ^ Z.of_nat 4) with (2^32). rewrite signed32_mod.
  unfold signed32. rewrite (Z.mod_small (s2 + s1)) by lia. destruct (Z.ltb_spec (s2 + s1) (2^31)); [| lia ].
  rewrite Z.mod_small by lia. unfold s1, s2, sum. cbn [fold_right]. lia.
Qed.

(** hsum_32i *)
Lemma shuf_1032 a b c d : shuffle_epi32 (w4 a b c d) 1 0 3 2 = w4 c d a b. Proof. reflexivity. Qed.
Lemma shuflo_1032 a b c d : shufflelo_epi16 (w4 a b c d) 1 0 3 2 = w4 b a c d. Proof. reflexivity. Qed.
Lemma hsum_32i_ok r : register r -> is_int32_of (hsum_32i r) (word r 0 + word r 1 + word r 2 + word r 3).
Proof.
  intro H. destruct (register_w4 r H) as [E B]. rewrite E at 1. unfold hsum_32i, add_epi32.
  rewrite shuf_1032, lanewise4, shuflo_1032, lanewise4, cvt_w4.
  rewrite (Z.mod_small (word r 0)), (Z.mod_small (word r 1)), (Z.mod_small (word r 2)), (Z.mod_small (word r 3)) by (apply B; lia).
  set (a := word r 0). set (b := word r 1). set (c := word r 2). set (d := word r 3).
  assert (X : signed32 ((b + d) mod 2^32 + (a + c) mod 2^32) = signed32 (a + b + c + d)).
  { rewrite <- (signed32_mod (_ + _)), <- (signed32_mod (a + b + c + d)). f_equal.
    rewrite <- Z.add_mod by lia. f_equal. lia. }
  rewrite X. apply signed32_spec.
Qed.

(** hmax_32si *)
Lemma shuf_0032 a b c d : shuffle_epi32 (w4 a b c d) 0 0 3 2 = w4 c d a a. Proof. reflexivity. Qed.
Lemma shuf_0001 a b c d : shuffle_epi32 (w4 a b c d) 0 0 0 1 = w4 b a a a. Proof. reflexivity. Qed.
Lemma signed32_range z : -(2^31) <= z < 2^31 -> signed32 z = z.
Proof.
  intro H. apply (int32_unique _ _ z); [ apply signed32_spec |]. split; auto. rewrite Z.sub_diag. reflexivity.
Qed.
Lemma hmax_32si_ok r : register r ->
  hmax_32si r = Z.max (Z.max (signed32 (word r 0)) (signed32 (word r 2))) (Z.max (signed32 (word r 1)) (signed32 (word r 3))).
Proof.
  intro H. destruct (register_w4 r H) as [E B]. rewrite E at 1. unfold hmax_32si, max_epi32.
  rewrite shuf_0032, lanewise4, shuf_0001, lanewise4, cvt_w4. rewrite !signed32_mod.
  pose proof (signed32_spec (word r 0)) as [R0 _]. pose proof (signed32_spec (word r 1)) as [R1 _].
  pose proof (signed32_spec (word r 2)) as [R2 _]. pose proof (signed32_spec (word r 3)) as [R3 _].
  rewrite (signed32_range (Z.max (signed32 (word r 0)) _)), (signed32_range (Z.max (signed32 (word r 1)) _)) by lia. rewrite signed32_range by lia. reflexivity.
Qed.

(** mult_32si: both variants *)
Lemma mult_sse41_ok r s : register r -> register s ->
  mult_32si_sse41 r s = w4 (word r 0 * word s 0) (word r 1 * word s 1) (word r 2 * word s 2) (word r 3 * word s 3).
Proof.
  intros Hr Hs. destruct (register_w4 r Hr) as [E B]. destruct (register_w4 s Hs) as [E' B'].
  rewrite E at 1. rewrite E' at 1. unfold mult_32si_sse41, mullo_epi32. rewrite lanewise4.
  rewrite !Z.mod_small by (apply B || apply B'; lia). reflexivity.
Qed.
Lemma unle8_low x : firstn 4 (unle 8 x) = unle 4 x. Proof. reflexivity. Qed.
Lemma mult_sse2_ok r s : register r -> register s -> mult_32si_sse2 r s = mult_32si_sse41 r s.
Proof.
  intros Hr Hs. rewrite mult_sse41_ok by auto. destruct (register_w4 r Hr) as [E B]. destruct (register_w4 s Hs) as [E' B'].
  rewrite E at 1. rewrite E' at 1.
  set (a := word r 0) in *. set (b := word r 1) in *. set (c := word r 2) in *. set (d := word r 3) in *.
  set (a' := word s 0) in *. set (b' := word s 1) in *. set (c' := word s 2) in *. set (d' := word s 3) in *.
  assert (Lw : forall x, 0 <= x < 2^32 -> le (unle 4 x) = x).
  { intros x Hx. rewrite le_unle. apply Z.mod_small. exact Hx. }
  assert (M1 : mul_epu32 (w4 a b c d) (w4 a' b' c' d') = unle 8 (a * a') ++ unle 8 (c * c')).
  { transitivity (unle 8 (le (unle 4 a) * le (unle 4 a')) ++ unle 8 (le (unle 4 c) * le (unle 4 c'))); [ reflexivity |].
    rewrite !Lw by (unfold a, a', c, c'; (apply B || apply B'); lia). reflexivity. }
  assert (M2 : mul_epu32 (srli_si128 (w4 a b c d) 4) (srli_si128 (w4 a' b' c' d') 4) = unle 8 (b * b') ++ unle 8 (d * d')).
  { transitivity (unle 8 (le (unle 4 b) * le (unle 4 b')) ++ unle 8 (le (unle 4 d) * le (unle 4 d'))); [ reflexivity |].
    rewrite !Lw by (unfold b, b', d, d'; (apply B || apply B'); lia). reflexivity. }
  unfold mult_32si_sse2. rewrite M1, M2. reflexivity.
Qed.
Lemma word_w4 a b c d : word (w4 a b c d) 0 = a mod 2^32 /\ word (w4 a b c d) 1 = b mod 2^32 /\ word (w4 a b c d) 2 = c mod 2^32 /\ word (w4 a b c d) 3 = d mod 2^32.
Proof.
  assert (X : forall x, le (unle 4 x) = x mod 2^32) by (intro; apply (le_unle 4)).
  rewrite <- !X. unfold word, w4. cbn [unle app Nat.mul Nat.add nth le]. lia.
Qed.

(** extract *)
Lemma extract_sse41_ok r i : register r -> (i < 4)%nat -> is_int32_of (extract_32si_sse41 r i) (word r i).
Proof.
  intros H Hi. unfold extract_32si_sse41. replace (le (firstn 4 (skipn (4 * i) r))) with (word r i); [ apply signed32_spec |].
  explode r H. unfold word. do 4 (destruct i as [|i]; [ cbn [Nat.mul Nat.add nth skipn firstn le]; lia |]). lia.
Qed.
Lemma extract_sse2_iff r i : register r -> (i < 4)%nat ->
  (extract_32si_sse2 r i = extract_32si_sse41 r i <-> word r i mod 2^16 = 0).
Proof.
  intros H Hi. unfold extract_32si_sse2, extract_32si_sse41.
  assert (W : exists lo hi, 0 <= lo < 2^16 /\ 0 <= hi < 2^16 /\ extract_epi16 r (i * 2) = lo /\ extract_epi16 r (i * 2 + 1) = hi /\
     le (firstn 4 (skipn (4 * i) r)) = lo + 2^16 * hi /\ word r i = lo + 2^16 * hi).
  { explode r H. unfold word, extract_epi16.
    do 4 (destruct i as [|i]; [ cbn [Nat.mul Nat.add nth skipn firstn le]; eexists; eexists; repeat split; try reflexivity; lia |]). lia. }
  destruct W as (lo & hi & B1 & B2 & -> & -> & -> & ->).
  replace ((lo + 2^16 * hi) mod 2^16) with lo.
  2: { rewrite (Z.mul_comm (2^16)), Z.mod_add by lia. now rewrite Z.mod_small. }
  split; intro E.
  - pose proof (signed32_spec ((lo + hi) * 2^16)) as [_ S1]. pose proof (signed32_spec (lo + 2^16 * hi)) as [_ S2].
    rewrite E in S1. apply Z.mod_divide in S1; [| lia ]. apply Z.mod_divide in S2; [| lia ]. destruct S1 as [p S1], S2 as [q S2].
    assert (lo * (2^16 - 1) = (q - p) * 2^32) by lia. assert (0 <= q - p) by lia. lia.
  - f_equal. lia.
Qed.

(** mult_8i *)
Definition pairs (l : list (Z * Z)) : reg := flat_map (fun p => [fst p; snd p]) l.
Lemma reg_pairs r : register r -> exists l, r = pairs l /\ length l = 8%nat /\ Forall (fun p => byte (fst p) /\ byte (snd p)) l.
Proof.
  intro H. explode r H.
  exists [(z,z0);(z1,z2);(z3,z4);(z5,z6);(z7,z8);(z9,z10);(z11,z12);(z13,z14)].
  split; [ reflexivity |]. split; [ reflexivity |]. repeat constructor; cbn; lia.
Qed.
Lemma lanes2_pairs l : (length l <= 16)%nat -> lanes 2 (pairs l) = map (fun p => fst p + 256 * snd p) l.
Proof.
  unfold lanes. generalize 16%nat. induction l as [|[a b] l IH]; intros n Hn; cbn [length] in Hn.
  - now destruct n.
  - destruct n; [ lia |]. cbn [pairs flat_map app lanes_ firstn skipn map fst snd le]. f_equal; [ lia |]. apply IH. lia.
Qed.
Lemma unlanes2 l : unlanes 2 l = pairs (map (fun x => (x mod 256, x / 256 mod 256)) l).
Proof. unfold unlanes, pairs. induction l; auto. cbn. f_equal. f_equal. exact IHl. Qed.
Lemma map2_length {A B C} (f : A -> B -> C) a b : length (map2 f a b) = Nat.min (length a) (length b).
Proof. revert b. induction a; intros [|y b]; cbn; auto. Qed.
Lemma map2_map {A B C D E} (f : C -> D -> E) (g : A -> C) (h : B -> D) a b : map2 f (map g a) (map h b) = map2 (fun x y => f (g x) (h y)) a b.
Proof. revert b. induction a; intros [|y b]; cbn; auto. now rewrite IHa. Qed.
Lemma map_map2 {A B C D} (g : C -> D) (f : A -> B -> C) a b : map g (map2 f a b) = map2 (fun x y => g (f x y)) a b.
Proof. revert b. induction a; intros [|y b]; cbn; auto. now rewrite IHa. Qed.
Lemma map2_same {A B C} (f g : A -> B -> C) a b : (forall x y, In x a -> In y b -> f x y = g x y) -> map2 f a b = map2 g a b.
Proof. revert b. induction a; intros [|y b] H; cbn; auto. f_equal; [ apply H; now left |]. apply IHa. intros. apply H; now right. Qed.
Lemma map2_diag {A B C D} (f : C -> D -> B) (p : A -> C) (q : A -> D) l : map2 f (map p l) (map q l) = map (fun x => f (p x) (q x)) l.
Proof. induction l; cbn; auto. now rewrite IHl. Qed.

Lemma lanes2_unlanes l : (length l <= 16)%nat -> lanes 2 (unlanes 2 l) = map (fun x => x mod 2^16) l.
Proof.
  intro H. rewrite unlanes2, lanes2_pairs by now rewrite map_length. rewrite map_map. apply map_ext. intro x. cbn [fst snd].
  change (2^16) with (256 * 256). now rewrite Z.rem_mul_r by lia.
Qed.
Lemma mult_8i_lane a0 a1 b0 b1 : byte a0 -> byte a1 -> byte b0 -> byte b1 ->
  let a := a0 + 256 * a1 in let b := b0 + 256 * b1 in
  let odd := (((a / 2^8) mod 2^16) * ((b / 2^8) mod 2^16)) mod 2^16 in
  let o := odd * 2^8 in let e := (((a * b) mod 2^16 * 2^8) mod 2^16) / 2^8 in
  o mod 256 = 0 /\ o / 256 mod 256 = (a1 * b1) mod 256 /\ e mod 256 = (a0 * b0) mod 256 /\ e / 256 mod 256 = 0.
Proof.
  intros Ha0 Ha1 Hb0 Hb1. unfold byte in *. cbn zeta.
  change (2^16) with 65536. change (2^8) with 256.
  assert (Xa : (a0 + 256 * a1) / 256 = a1) by (rewrite (Z.mul_comm 256), Z.div_add by lia; rewrite Z.div_small by lia; lia).
  assert (Xb : (b0 + 256 * b1) / 256 = b1) by (rewrite (Z.mul_comm 256), Z.div_add by lia; rewrite Z.div_small by lia; lia).
  rewrite Xa, Xb. rewrite (Z.mod_small a1), (Z.mod_small b1) by lia.
  rewrite (Z.mod_small (a1 * b1)) by nia.
  split; [ apply Z.mod_mul; lia |]. split; [ now rewrite Z.div_mul by lia |].
  set (p := (a0 + 256 * a1) * (b0 + 256 * b1)).
  assert (E : (p mod 65536 * 256) mod 65536 / 256 = p mod 256).
  { replace (p mod 65536) with (p mod 256 + 256 * (p / 256 mod 256)) by (change 65536 with (256 * 256); symmetry; apply Z.rem_mul_r; lia).
    replace ((p mod 256 + 256 * (p / 256 mod 256)) * 256) with (p mod 256 * 256 + (p / 256 mod 256) * 65536) by ring.
    rewrite Z.mod_add by lia. pose proof (Z.mod_pos_bound p 256 ltac:(lia)). rewrite Z.mod_small by lia. apply Z.div_mul. lia. }
  rewrite E. rewrite Z.mod_mod by lia. split.
  - unfold p. replace ((a0 + 256 * a1) * (b0 + 256 * b1)) with (a0 * b0 + (a0 * b1 + a1 * b0 + 256 * a1 * b1) * 256) by ring. apply Z.mod_add. lia.
  - rewrite (Z.div_small (p mod 256)) by (apply Z.mod_pos_bound; lia). reflexivity.
Qed.

Lemma mult_8i_ok r s : register r -> register s -> mult_8i r s = map2 (fun x y => (x * y) mod 256) r s.
Proof.
  intros Hr Hs. destruct (reg_pairs r Hr) as (l & -> & Ll & Fl). destruct (reg_pairs s Hs) as (m & -> & Lm & Fm).
  unfold mult_8i, mullo_epi16, srli_epi16, slli_epi16, lanewise, lanemap.
  rewrite !lanes2_pairs by lia.
  rewrite !(lanes2_unlanes (map _ (map _ l))), !(lanes2_unlanes (map _ (map _ m))), !(lanes2_unlanes (map2 _ (map _ l) (map _ m)))
    by (rewrite ?map2_length, ?map_length, ?Ll, ?Lm; cbn; lia).
  rewrite !lanes2_unlanes by (rewrite ?map_length, ?map2_length, ?map_length, ?Ll, ?Lm; cbn; lia).
  rewrite !unlanes2. clear Hr Hs Ll Lm. unfold or_si128, pairs.
  revert m Fm. induction Fl as [|[a0 a1] l [Ha0 Ha1] Fl IH]; intros m Fm; [ reflexivity |].
  destruct Fm as [|[b0 b1] m [Hb0 Hb1] Fm]; [ reflexivity |].
  cbn [map2 map flat_map fst snd app] in *.
  destruct (mult_8i_lane a0 a1 b0 b1 Ha0 Ha1 Hb0 Hb1) as (E1 & E2 & E3 & E4). cbn zeta in *.
  rewrite E1, E2, E3, E4, !Z.lor_0_l, !Z.lor_0_r. f_equal. f_equal. apply IH. exact Fm.
Qed.

(** unpack *)
Lemma unpack_ok low r : register r -> lanes 2 (unpack_8ui_to_16ui low r) = if low then firstn 8 r else skipn 8 r.
Proof. intro H. explode r H. destruct low; cbn [unpack_8ui_to_16ui]; 
  cbv -[Z.add Z.mul]; repeat (apply (f_equal2 (@cons Z)); [ lia |]); reflexivity. Qed.

(** hmin_8ui, hmax_8ui *)
Lemma minpos_spec l i : Forall (fun x => 0 <= x < 2^16) l -> l <> [] ->
  let m := fst (minpos l i) in In m l /\ Forall (fun x => m <= x) l /\ (snd (minpos l i) < i + length l)%nat.
Proof.
  revert i. induction l as [|x l IH]; intros i F N; [ congruence |]. inversion F as [|? ? Hx Fl]; subst. cbn [minpos].
  destruct l as [|y l].
  - cbn [minpos]. destruct (Z.leb_spec x (2^16)); [| lia ]. cbn [fst snd length]. split; [ now left |]. split; [ constructor; [ lia | constructor ] | lia ].
  - destruct (IH (S i) Fl ltac:(discriminate)) as (A & B & C). destruct (minpos (y :: l) (S i)) as [m j]. cbn [fst snd] in *.
    destruct (Z.leb_spec x m); cbn [fst snd].
    + split; [ now left |]. split; [ constructor; [ lia |]; eapply Forall_impl; [| exact B ]; cbn; lia |]. cbn [length]. lia.
    + split; [ now right |]. split; [ constructor; [ lia | exact B ] |]. cbn [length] in *. lia.
Qed.

Lemma hmin_8ui_ok r : register r -> In (hmin_8ui r) r /\ Forall (fun x => hmin_8ui r <= x) r.
Proof.
  intro Hr. destruct (reg_pairs r Hr) as (l & -> & Ll & Fl). clear Hr.
  assert (S : srli_epi16 (pairs l) 8 = pairs (map (fun p => (snd p, 0)) l)).
  { unfold srli_epi16, lanemap. rewrite lanes2_pairs by lia. rewrite unlanes2, !map_map. f_equal.
    apply map_ext_in. intros [a b] Hin. cbn [fst snd]. rewrite Forall_forall in Fl. destruct (Fl _ Hin) as [Ha Hb]. unfold byte in *; cbn [fst snd] in *.
    change (2^8) with 256. rewrite (Z.mul_comm 256), Z.div_add by lia. rewrite (Z.div_small a) by lia. rewrite Z.add_0_l.
    rewrite Z.mod_small, Z.div_small by lia. reflexivity. }
  assert (M : min_epu8 (pairs l) (pairs (map (fun p => (snd p, 0)) l)) = pairs (map (fun p => (Z.min (fst p) (snd p), 0)) l)).
  { clear Ll S. unfold min_epu8, pairs. induction Fl as [|[a b] l [Ha Hb] Fl IH]; auto. cbn [map flat_map app map2 fst snd] in *.
    unfold byte in *. rewrite IH. do 2 f_equal. lia. }
  unfold hmin_8ui. rewrite S, M. unfold minpos_epu16. rewrite lanes2_pairs by (rewrite map_length; lia). rewrite map_map. cbn [fst snd].
  assert (Q : map (fun p : Z * Z => Z.min (fst p) (snd p) + 256 * 0) l = map (fun p => Z.min (fst p) (snd p)) l) by (apply map_ext; intros; lia).
  rewrite Q. set (ms := map _ l).
  assert (Fms : Forall (fun x => 0 <= x < 256) ms).
  { unfold ms. rewrite Forall_map. eapply Forall_impl; [| exact Fl ]. cbn. unfold byte. intros [a b]. cbn. lia. }
  destruct (minpos_spec ms 0) as (A & B & C).
  { eapply Forall_impl; [| exact Fms ]. cbn. lia. }
  { unfold ms. destruct l; [ discriminate Ll | discriminate ]. }
  destruct (minpos ms 0) as [m j]. cbn [fst snd] in *.
  assert (Hm : 0 <= m < 256) by (rewrite Forall_forall in Fms; apply Fms; exact A).
  assert (Hj : (j < 8)%nat) by (unfold ms in C; rewrite map_length, Ll in C; lia).
  assert (V : cvtsi128_si32 (unle 2 m ++ unle 2 (Z.of_nat j) ++ repeat 0 12) mod 256 = m).
  { unfold cvtsi128_si32. match goal with |- context [firstn 4 ?q] => change (firstn 4 q) with (unle 2 m ++ unle 2 (Z.of_nat j)) end.
    replace (le (unle 2 m ++ unle 2 (Z.of_nat j))) with (m + 65536 * Z.of_nat j).
    - unfold signed32. rewrite (Z.mod_small (m + _)) by lia. destruct (Z.ltb_spec (m + 65536 * Z.of_nat j) (2^31)); [| lia ].
      replace (m + 65536 * Z.of_nat j) with (m + (256 * Z.of_nat j) * 256) by ring. rewrite Z.mod_add by lia. now apply Z.mod_small.
    - cbn [unle app le]. rewrite (Z.mod_small m), (Z.div_small m), (Z.mod_small (Z.of_nat j)), (Z.div_small (Z.of_nat j)) by lia.
      change (0 mod 256) with 0. lia. }
  rewrite V. split.
  - unfold ms in A. apply in_map_iff in A. destruct A as ([a b] & E & Hin). cbn [fst snd] in E. unfold pairs. apply in_flat_map. exists (a, b). split; auto.
    cbn. lia.
  - rewrite Forall_forall. intros x Hx. unfold pairs in Hx. apply in_flat_map in Hx. destruct Hx as ([a b] & Hin & Hx). cbn in Hx.
    rewrite Forall_forall in B. specialize (B (Z.min a b)). assert (m <= Z.min a b) by (apply B; unfold ms; apply in_map_iff; exists (a, b); auto). lia.
Qed.

Lemma hmax_8ui_ok r : register r -> In (hmax_8ui r) r /\ Forall (fun x => x <= hmax_8ui r) r.
Proof.
  intros Hr. set (c := sub_epi8 (set1_epi8 (-1)) r).
  assert (E : c = map (fun x => 255 - x) r).
  { unfold c. explode r Hr. unfold sub_epi8, set1_epi8. change (-1 mod 256) with 255. cbn [repeat map2 map].
    rewrite !Z.mod_small by lia. reflexivity. }
  assert (Rc : register c).
  { rewrite E. destruct Hr as [L F]. split; [ now rewrite map_length |]. rewrite Forall_map. eapply Forall_impl; [| exact F ]. cbv beta. unfold byte. intros. lia. }
  destruct (hmin_8ui_ok c Rc) as [A B]. unfold hmax_8ui. fold c. set (m := hmin_8ui c) in *.
  assert (Hm : 0 <= m < 256) by (destruct Rc as [_ F]; rewrite Forall_forall in F; apply (F m A)).
  rewrite Z.mod_small by lia. rewrite E in A, B. split.
  - apply in_map_iff in A. destruct A as (x & Ex & Hin). replace (255 - m) with x by lia. exact Hin.
  - rewrite Forall_map in B. eapply Forall_impl; [| exact B ]. cbv beta. intros. lia.
Qed.

(** comparisons *)
Lemma le_zero l : Forall (fun x => 0 <= x) l -> (le l = 0 <-> Forall (fun x => x = 0) l).
Proof.
  induction 1 as [|x l Hx Fl IH]; cbn [le].
  - split; auto.
  - assert (0 <= le l) by (clear - Fl; induction Fl; cbn [le]; lia). split.
    + intro E. constructor; [ lia |]. apply IH. lia.
    + intro F. inversion F; subst. rewrite (proj2 IH) by auto. reflexivity.
Qed.
Lemma lxor_0 x y : Z.lxor x y = 0 <-> x = y.
Proof. split; [ apply Z.lxor_eq | intros ->; apply Z.lxor_nilpotent ]. Qed.

Lemma cmp_zero_sse41_ok r : register r -> cmp_zero_sse41 r = true <-> Forall (fun x => x = 0) r.
Proof.
  intros [_ F]. unfold cmp_zero_sse41, testz.
  assert (E : map2 Z.land r r = r). { clear F. induction r; auto. cbn. now rewrite Z.land_diag, IHr. }
  rewrite E. rewrite <- le_zero by (eapply Forall_impl; [| exact F ]; cbn; unfold byte; lia).
  destruct (Z.eqb_spec (le r) 0); cbn; split; congruence.
Qed.
Lemma cmp_eq_sse41_ok r s : register r -> register s -> cmp_eq_sse41 r s = true <-> r = s.
Proof.
  intros Hr Hs. unfold cmp_eq_sse41, testc.
  assert (E : map2 (fun x y => Z.land (255 - x) y) setzero (xor_si128 r s) = xor_si128 r s).
  { destruct Hr as [Lr Fr], Hs as [Ls Fs]. unfold setzero, xor_si128. rewrite <- Lr. clear Lr. revert r Fr Ls Fs.
    assert (Lx : forall x y, byte x -> byte y -> Z.land (255 - 0) (Z.lxor x y) = Z.lxor x y).
    { intros x y Hx Hy. change (255 - 0) with (Z.ones 8). rewrite Z.land_comm, Z.land_ones by lia. unfold byte in *.
      apply Z.mod_small. change (2^8) with 256. split; [ apply Z.lxor_nonneg; lia |].
      assert (Hx8 : x = x mod 2^8) by (change (2^8) with 256; rewrite Z.mod_small; lia). assert (Hy8 : y = y mod 2^8) by (change (2^8) with 256; rewrite Z.mod_small; lia).
      destruct (Z.eq_dec (Z.lxor x y) 0) as [->|Nz]; [ lia |].
      assert (0 <= Z.lxor x y) by (apply Z.lxor_nonneg; lia).
      change 256 with (2^8). apply Z.log2_lt_pow2; [ lia |].
      eapply Z.le_lt_trans; [ apply Z.log2_lxor; lia |].
      apply Z.max_lub_lt; [ destruct (Z.eq_dec x 0) as [->|]; [ reflexivity | apply Z.log2_lt_pow2; lia ] | destruct (Z.eq_dec y 0) as [->|]; [ reflexivity | apply Z.log2_lt_pow2; lia ] ]. }
    intros r Fr Ls Fs. revert r Fr. clear Ls. induction Fs as [|y s Hy Fs IH]; intros [|x r] Fr; cbn [length repeat map2]; auto.
    inversion Fr; subst. rewrite Lx by auto. now rewrite IH. }
  rewrite E. destruct Hr as [Lr Fr], Hs as [Ls Fs].
  assert (P : Forall (fun x => 0 <= x) (xor_si128 r s)).
  { unfold xor_si128. clear Lr Ls E. revert s Fs. induction Fr as [|x r Hx Fr IH]; intros s Fs; [ constructor |].
    destruct Fs as [|y s Hy Fs]; cbn; constructor; auto. unfold byte in *. apply Z.lxor_nonneg. lia. }
  assert (Q : (le (xor_si128 r s) =? 0) = true <-> r = s).
  { rewrite Z.eqb_eq, le_zero by exact P. unfold xor_si128. assert (L : length r = length s) by lia. clear E P Lr Ls Fr Fs.
    revert s L. induction r as [|x r IH]; intros [|y s] L; try discriminate.
    - split; [ reflexivity | constructor ].
    - cbn [map2]. split.
      + intro F. inversion F; subst. f_equal; [ now apply lxor_0 |]. apply IH; [ now injection L | assumption ].
      + intro X. injection X as -> ->. constructor; [ apply Z.lxor_nilpotent |]. apply (proj2 (IH s eq_refl)). reflexivity. }
  destruct (le (xor_si128 r s) =? 0); cbn; intuition congruence.
Qed.
Lemma movemask_w4 p q r s : let m (c : bool) := if c then 2^32 - 1 else 0 in
  movemask_epi8 (w4 (m p) (m q) (m r) (m s)) =? 65535 = (p && q && r && s)%bool.
Proof. destruct p, q, r, s; reflexivity. Qed.
Lemma cmp_eq_sse2_ok r s : register r -> register s -> cmp_eq_sse2 r s = true <-> r = s.
Proof.
  intros Hr Hs. destruct (register_w4 r Hr) as [Er Br]. destruct (register_w4 s Hs) as [Es Bs].
  unfold cmp_eq_sse2, cmpeq_epi32. rewrite Er at 1. rewrite Es at 1. rewrite lanewise4.
  rewrite !Z.mod_small by (apply Br || apply Bs; lia).
  pose proof (movemask_w4 (word r 0 =? word s 0) (word r 1 =? word s 1) (word r 2 =? word s 2) (word r 3 =? word s 3)) as M. cbn zeta in M.
  rewrite M. rewrite !andb_true_iff, !Z.eqb_eq. split.
  - intros (((A & B) & C) & D). rewrite Er, Es. congruence.
  - intros ->. auto.
Qed.
Lemma cmp_zero_sse2_ok r : register r -> cmp_zero_sse2 r = true <-> Forall (fun x => x = 0) r.
Proof.
  intro Hr. assert (Hz : register setzero) by (split; [ reflexivity | repeat constructor; unfold byte; lia ]).
  change (cmp_zero_sse2 r) with (cmp_eq_sse2 r setzero). rewrite cmp_eq_sse2_ok by auto.
  destruct Hr as [L _]. unfold setzero. rewrite <- L. clear. induction r as [|x r IH]; cbn [length repeat].
  - split; auto.
  - split; intro H.
    + injection H as -> H. constructor; auto. now apply IH.
    + inversion H; subst. f_equal. now apply IH.
Qed.

Lemma hmax_32si_spec r v : register r -> (forall i, (i < 4)%nat -> is_int32_of (v i) (word r i)) ->
  (exists i, (i < 4)%nat /\ hmax_32si r = v i) /\ (forall i, (i < 4)%nat -> v i <= hmax_32si r).
Proof.
  intros H V. rewrite hmax_32si_ok by auto.
  assert (E : forall i, (i < 4)%nat -> signed32 (word r i) = v i) by (intros i Hi; eapply int32_unique; [ apply signed32_spec | auto ]).
  rewrite !E by lia. split.
  - destruct (Z.max_spec (v 0%nat) (v 2%nat)) as [[_ ->]|[_ ->]]; destruct (Z.max_spec (v 1%nat) (v 3%nat)) as [[_ ->]|[_ ->]];
    (match goal with |- context [Z.max (v ?i) (v ?j)] => destruct (Z.max_spec (v i) (v j)) as [[_ ->]|[_ ->]]; [ exists j | exists i ]; split; auto; lia end).
  - intros i Hi. do 4 (destruct i as [|i]; [ lia |]). lia.
Qed.
Lemma nth_map2 (f : Z -> Z -> Z) r s i : length r = length s -> (i < length r)%nat -> nth i (map2 f r s) 0 = f (nth i r 0) (nth i s 0).
Proof.
  revert s i. induction r as [|x r IH]; intros [|y s] i L Hi; cbn in *; try lia. destruct i; auto. apply IH; lia.
Qed.
Lemma products_spec r s : register r -> register s ->
  (forall i, (i < 16)%nat -> nth i (mult_8i r s) 0 = (nth i r 0 * nth i s 0) mod 256) /\
  (forall i, (i < 4)%nat -> word (mult_32si_sse41 r s) i = (word r i * word s i) mod 2^32) /\
  mult_32si_sse2 r s = mult_32si_sse41 r s.
Proof.
  intros Hr Hs. split; [| split ].
  - intros i Hi. rewrite mult_8i_ok by auto. rewrite nth_map2; [ reflexivity | destruct Hr, Hs; lia | destruct Hr; lia ].
  - intros i Hi. rewrite mult_sse41_ok by auto. destruct (word_w4 (word r 0 * word s 0) (word r 1 * word s 1) (word r 2 * word s 2) (word r 3 * word s 3)) as (A & B & C & D).
    do 4 (destruct i as [|i]; [ assumption |]). lia.
  - now apply mult_sse2_ok.
Qed.
Lemma unpack_spec low r i : register r -> (i < 8)%nat ->
  let u := unpack_8ui_to_16ui low r in nth (2 * i) u 0 = nth (if low then i else 8 + i)%nat r 0 /\ nth (2 * i + 1) u 0 = 0.
Proof.
  intros H Hi. explode r H. destruct low; cbv zeta; do 8 (destruct i as [|i]; [ split; reflexivity |]); lia.
Qed.
Lemma extract_sse2_refuted : exists r, register r /\ ~ is_int32_of (extract_32si_sse2 r 0) (word r 0).
Proof.
  exists [1;0;0;0;0;0;0;0;0;0;0;0;0;0;0;0]. split.
  - split; [ reflexivity | repeat constructor; unfold byte; lia ].
  - intros [_ H]. vm_compute in H. discriminate.
Qed.
