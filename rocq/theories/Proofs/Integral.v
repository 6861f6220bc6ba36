From Coq Require Import ZArith List Bool Lia.
From Verif Require Import Lib.Grid Model.Integral Spec.Integral.
Import ListNotations.
Open Scope Z_scope.

(** ** sums over ranges *)
Lemma sum_app a b : fold_right Z.add 0 (a ++ b) = fold_right Z.add 0 a + fold_right Z.add 0 b.
Proof. induction a as [|x a IH]; cbn [app fold_right]; lia. Qed.
Lemma zrange_split a n m : 0 <= n -> 0 <= m -> zrange a (n + m) = zrange a n ++ zrange (a + n) m.
Proof. intros. unfold zrange. rewrite Z2Nat.inj_add by lia. rewrite zseq_app, Z2Nat.id by lia. reflexivity. Qed.
Lemma zsum_split f a n m : 0 <= n -> 0 <= m -> zsum f a (n + m) = zsum f a n + zsum f (a + n) m.
Proof. intros. unfold zsum. now rewrite zrange_split, map_app, sum_app by lia. Qed.
Lemma zsum_ext f g a n : (forall i, a <= i < a + n -> f i = g i) -> zsum f a n = zsum g a n.
Proof. intro H. unfold zsum. f_equal. apply map_ext_in. intros i I. apply H. now apply in_zrange. Qed.
Lemma sum_map_plus {A} (f g : A -> Z) l : fold_right Z.add 0 (map (fun i => f i + g i) l) = fold_right Z.add 0 (map f l) + fold_right Z.add 0 (map g l).
Proof. induction l as [|a l IH]; cbn [map fold_right]; lia. Qed.
Lemma zsum_plus f g a n : zsum (fun i => f i + g i) a n = zsum f a n + zsum g a n.
Proof. apply sum_map_plus. Qed.
Lemma sum_grid f y h x w : zsum (fun i => zsum (f i) x w) y h = fold_right Z.add 0 (map (fun p => f (fst p) (snd p)) (grid y h x w)).
Proof.
  unfold zsum, grid. induction (zrange y h) as [|a l IH]; [ reflexivity |]. cbn [map list_prod fold_right].
  rewrite map_app, sum_app, <- IH. f_equal. rewrite map_map. reflexivity.
Qed.
Lemma sum_01_count {A} (q : A -> bool) l : fold_right Z.add 0 (map (fun p => if q p then 1 else 0) l) = count q l.
Proof. induction l as [|a l IH]; [ reflexivity |]. cbn [map fold_right]. rewrite count_cons, IH. reflexivity. Qed.

(** ** box sums *)
Lemma box_sum f y0 x0 h w : 0 <= y0 -> 0 <= x0 -> 0 <= h -> 0 <= w ->
  cv_integral f (y0 + h) (x0 + w) - cv_integral f (y0 + h) x0 - cv_integral f y0 (x0 + w) + cv_integral f y0 x0 =
  zsum (fun i => zsum (f i) x0 w) y0 h.
Proof.
  intros. unfold cv_integral. rewrite !(zsum_split _ 0 y0 h) by lia. cbn [Z.add].
  assert (E : forall a n, zsum (fun i => zsum (f i) 0 (x0 + w)) a n = zsum (fun i => zsum (f i) 0 x0) a n + zsum (fun i => zsum (f i) x0 w) a n).
  { intros a n. rewrite <- zsum_plus. apply zsum_ext. intros i _. rewrite zsum_split by lia. reflexivity. }
  rewrite !E. lia.
Qed.
Lemma tl_br c off n : 0 <= c < n -> 0 <= off -> 0 <= tl c off <= c /\ c < br c off n <= n /\
  forall a, 0 <= a < n -> ((Z.abs (a - c) <=? off) = (tl c off <=? a) && (a <? tl c off + (br c off n - tl c off))).
Proof.
  intros C O. unfold tl, br. split; [ lia | split; [ lia |]]. intros a A.
  destruct (Z.leb_spec (Z.abs (a - c)) off), (Z.leb_spec (Z.max (c - off) 0) a), (Z.ltb_spec a (Z.max (c - off) 0 + (Z.min (c + off) (n - 1) + 1 - Z.max (c - off) 0)));
    cbn [andb]; lia.
Qed.
Lemma count_window q rows cols off y x : 0 <= y < rows -> 0 <= x < cols -> 0 <= off ->
  count (fun p => q (fst p) (snd p)) (grid (tl y off) (br y off rows - tl y off) (tl x off) (br x off cols - tl x off)) = hits rows cols off y x q.
Proof.
  intros Y X O. destruct (tl_br y off rows Y O) as (Ty & By & Ey). destruct (tl_br x off cols X O) as (Tx & Bx & Ex).
  unfold hits, count. f_equal. f_equal.
  rewrite <- (filter_filter (fun p => q (fst p) (snd p)) (within off y x)). f_equal. unfold grid.
  rewrite <- (filter_zrange (tl y off) (br y off rows - tl y off) rows) by lia. rewrite <- (filter_zrange (tl x off) (br x off cols - tl x off) cols) by lia.
  rewrite <- filter_prod. apply filter_ext_in. intros [a b] I. apply in_prod_iff in I. rewrite !in_zrange in I. unfold within. cbn [fst snd].
  rewrite Ey, Ex by lia. reflexivity.
Qed.
Lemma box_hits_sum f rows cols off y x : 0 <= y < rows -> 0 <= x < cols -> 0 <= off ->
  box_hits (cv_integral f) rows cols off y x =
  zsum (fun i => zsum (f i) (tl x off) (br x off cols - tl x off)) (tl y off) (br y off rows - tl y off).
Proof.
  intros Y X O. destruct (tl_br y off rows Y O) as (Ty & By & _). destruct (tl_br x off cols X O) as (Tx & Bx & _).
  rewrite <- box_sum by lia. unfold box_hits. rewrite !Zplus_minus. reflexivity.
Qed.
Lemma box_hits_count f (q : Z -> Z -> bool) rows cols off y x : 0 <= y < rows -> 0 <= x < cols -> 0 <= off ->
  (forall a b, 0 <= a < rows -> 0 <= b < cols -> f a b = if q a b then 1 else 0) ->
  box_hits (cv_integral f) rows cols off y x = hits rows cols off y x q.
Proof.
  intros Y X O B. rewrite box_hits_sum by assumption. rewrite sum_grid, <- count_window by assumption.
  rewrite <- sum_01_count. f_equal. apply map_ext_in. intros [a b] I. apply in_grid in I. cbn [fst snd] in *.
  destruct (tl_br y off rows Y O) as (Ty & By & _). destruct (tl_br x off cols X O) as (Tx & Bx & _). apply B; lia.
Qed.
Lemma area_hits rows cols off y x : 0 <= y < rows -> 0 <= x < cols -> 0 <= off ->
  (br x off cols - tl x off) * (br y off rows - tl y off) = hits rows cols off y x (fun _ _ => true).
Proof.
  intros Y X O. rewrite <- count_window by assumption. rewrite count_true, grid_length; [ lia | |];
  destruct (tl_br y off rows Y O) as (Ty & By & _); destruct (tl_br x off cols X O) as (Tx & Bx & _); lia.
Qed.
Lemma half_lt h p : 0 <= h -> (Z.quot h 2 <? p) = (h <? 2 * p).
Proof.
  intro H. rewrite Z.quot_div_nonneg by lia. pose proof (Z.div_mod h 2 ltac:(lia)). pose proof (Z.mod_pos_bound h 2 ltac:(lia)).
  destruct (Z.ltb_spec (h / 2) p), (Z.ltb_spec h (2 * p)); lia.
Qed.
Lemma hits_nonneg rows cols off y x q : 0 <= hits rows cols off y x q.
Proof. apply count_nonneg. Qed.

Theorem median_majority f rows cols ksize y x : 0 <= y < rows -> 0 <= x < cols -> 1 < ksize ->
  bin_median true f rows cols ksize y x =
  if hits rows cols (ksize / 2) y x (fun _ _ => true) <? 2 * hits rows cols (ksize / 2) y x (nz f) then 255 else 0.
Proof.
  intros Y X K. unfold bin_median. rewrite (Z.quot_div_nonneg ksize 2) by lia. assert (O : 0 <= ksize / 2) by (apply Z.div_pos; lia).
  cbv zeta. rewrite area_hits by assumption. rewrite half_lt by apply hits_nonneg. unfold binary_integral.
  rewrite (box_hits_count _ (nz f)) by (try assumption; intros a b _ _; unfold binary_input, nz; destruct (f a b =? 0); reflexivity). reflexivity.
Qed.
Lemma masked_fold f m : forall w h p,
  fold_left (fun st (q : Z * Z) => if m (fst q) (snd q) =? 0 then st else (fst st + 1, if f (fst q) (snd q) =? 0 then snd st else snd st + 1)) w (h, p) =
  (h + count (fun q => nz m (fst q) (snd q)) w, p + count (fun q => nz m (fst q) (snd q) && nz f (fst q) (snd q)) w).
Proof.
  induction w as [|a w IH]; intros h p; cbn [fold_left].
  - unfold count. cbn. f_equal; lia.
  - rewrite !count_cons. unfold nz at 1 3 4. destruct (m (fst a) (snd a) =? 0); cbn [negb andb fst snd]; rewrite IH.
    + f_equal; lia.
    + destruct (f (fst a) (snd a) =? 0); cbn [negb]; f_equal; lia.
Qed.
Theorem median_masked_majority f m rows cols ksize def y x : 0 <= y < rows -> 0 <= x < cols -> 1 < ksize ->
  bin_median_masked f m rows cols ksize def y x =
  (let h := hits rows cols (ksize / 2) y x (nz m) in let p := hits rows cols (ksize / 2) y x (fun a b => nz m a b && nz f a b) in
   if h =? 0 then def else if h <? 2 * p then 255 else 0).
Proof.
  intros Y X K. unfold bin_median_masked. rewrite (Z.quot_div_nonneg ksize 2) by lia. assert (O : 0 <= ksize / 2) by (apply Z.div_pos; lia).
  cbv zeta. rewrite masked_fold. cbn [Z.add].
  rewrite (count_window (nz m)) by assumption. rewrite (count_window (fun a b => nz m a b && nz f a b)) by assumption.
  rewrite half_lt by apply hits_nonneg. pose proof (hits_nonneg rows cols (ksize / 2) y x (nz m)).
  destruct (Z.ltb_spec 0 (hits rows cols (ksize / 2) y x (nz m))), (Z.eqb_spec (hits rows cols (ksize / 2) y x (nz m)) 0); try lia; reflexivity.
Qed.
Lemma hits_ext rows cols off y x q q' : (forall a b, 0 <= a < rows -> 0 <= b < cols -> q a b = q' a b) -> hits rows cols off y x q = hits rows cols off y x q'.
Proof. intro H. apply count_ext_in. intros [a b] I. apply in_grid in I. cbn [fst snd] in *. rewrite H by lia. reflexivity. Qed.
Lemma hits_pos rows cols off y x : 0 <= y < rows -> 0 <= x < cols -> 0 <= off -> 0 < hits rows cols off y x (fun _ _ => true).
Proof.
  intros Y X O. rewrite <- area_hits by assumption. destruct (tl_br y off rows Y O) as (Ty & By & _). destruct (tl_br x off cols X O) as (Tx & Bx & _).
  apply Z.mul_pos_pos; lia.
Qed.
Theorem unmasked_is_masked_all f m rows cols ksize def y x : 0 <= y < rows -> 0 <= x < cols -> 1 < ksize ->
  (forall a b, 0 <= a < rows -> 0 <= b < cols -> m a b <> 0) ->
  bin_median_masked f m rows cols ksize def y x = bin_median true f rows cols ksize y x.
Proof.
  intros Y X K M. rewrite median_masked_majority, median_majority by assumption. cbv zeta.
  assert (T : forall a b, 0 <= a < rows -> 0 <= b < cols -> nz m a b = true).
  { intros a b A B. unfold nz. specialize (M a b A B). destruct (Z.eqb_spec (m a b) 0); [ congruence | reflexivity ]. }
  rewrite (hits_ext rows cols (ksize / 2) y x (nz m) (fun _ _ => true)) by exact T.
  rewrite (hits_ext rows cols (ksize / 2) y x (fun a b => nz m a b && nz f a b) (nz f)) by (intros a b A B; rewrite T by assumption; reflexivity).
  assert (P := hits_pos rows cols (ksize / 2) y x Y X ltac:(apply Z.div_pos; lia)).
  destruct (Z.eqb_spec (hits rows cols (ksize / 2) y x (fun _ _ => true)) 0); [ lia | reflexivity ].
Qed.
Theorem consensus_exact f mc rows cols ksize y x : 0 <= y < rows -> 0 <= x < cols -> 1 < ksize ->
  bin_consensus true f (Some mc) rows cols ksize y x = if mc y x <=? hits rows cols (ksize / 2) y x (nz f) then 255 else 0.
Proof.
  intros Y X K. unfold bin_consensus. rewrite (Z.quot_div_nonneg ksize 2) by lia. assert (O : 0 <= ksize / 2) by (apply Z.div_pos; lia).
  unfold binary_integral.
  rewrite (box_hits_count _ (nz f)) by (try assumption; intros a b _ _; unfold binary_input, nz; destruct (f a b =? 0); reflexivity). reflexivity.
Qed.
Theorem integral_range force f mask y x : (forall a b, 0 <= f a b < 256) -> 0 <= y -> 0 <= x ->
  0 <= binary_integral force f mask y x <= (if force then 1 else 255) * (y * x).
Proof.
  intros B Y X. unfold binary_integral, cv_integral. rewrite sum_grid.
  rewrite <- (grid_length 0 y 0 x) by lia. induction (grid 0 y 0 x) as [|p l IH]; cbn [map fold_right length]; [ lia |].
  assert (V : 0 <= binary_input force f mask (fst p) (snd p) <= (if force then 1 else 255)).
  { unfold binary_input. specialize (B (fst p) (snd p)). destruct mask as [m|]; [ destruct (m _ _ =? 0) |]; destruct force; try destruct (f _ _ =? 0); lia. }
  rewrite Nat2Z.inj_succ. destruct force; lia.
Qed.
(** without conversion the weights are the raw values *)
Theorem raw_01 f rows cols ksize y x : 0 <= y < rows -> 0 <= x < cols -> 1 < ksize ->
  (forall a b, 0 <= a < rows -> 0 <= b < cols -> f a b = 0 \/ f a b = 1) ->
  bin_median false f rows cols ksize y x = bin_median true f rows cols ksize y x.
Proof.
  intros Y X K B. assert (O : 0 <= ksize / 2) by (apply Z.div_pos; lia). unfold bin_median, binary_integral. rewrite (Z.quot_div_nonneg ksize 2) by lia.
  cbv zeta. rewrite !(box_hits_count _ (nz f)); try assumption; try reflexivity.
  - intros a b _ _. unfold binary_input, nz. destruct (f a b =? 0); reflexivity.
  - intros a b A C. unfold binary_input, nz. destruct (B a b A C) as [-> | ->]; reflexivity.
Qed.
Lemma sum_scale {A} (c : Z) (f : A -> Z) l : fold_right Z.add 0 (map (fun p => c * f p) l) = c * fold_right Z.add 0 (map f l).
Proof. induction l as [|a l IH]; cbn [map fold_right]; lia. Qed.
Theorem raw_255_dilates f rows cols ksize y x : 0 <= y < rows -> 0 <= x < cols -> 1 < ksize ->
  (forall a b, 0 <= a < rows -> 0 <= b < cols -> f a b = 0 \/ f a b = 255) -> hits rows cols (ksize / 2) y x (fun _ _ => true) < 510 ->
  bin_median false f rows cols ksize y x = if hits rows cols (ksize / 2) y x (nz f) =? 0 then 0 else 255.
Proof.
  intros Y X K B H. assert (O : 0 <= ksize / 2) by (apply Z.div_pos; lia). unfold bin_median, binary_integral. rewrite (Z.quot_div_nonneg ksize 2) by lia.
  cbv zeta. rewrite area_hits by assumption. rewrite half_lt by apply hits_nonneg.
  assert (E : box_hits (cv_integral (binary_input false f None)) rows cols (ksize / 2) y x = 255 * hits rows cols (ksize / 2) y x (nz f)).
  { rewrite box_hits_sum by assumption. rewrite sum_grid, <- count_window, <- sum_01_count, <- sum_scale by assumption. f_equal.
    apply map_ext_in. intros [a b] I. apply in_grid in I. cbn [fst snd] in *.
    destruct (tl_br y (ksize / 2) rows Y O) as (Ty & By & _). destruct (tl_br x (ksize / 2) cols X O) as (Tx & Bx & _).
    unfold binary_input, nz. destruct (B a b) as [-> | ->]; try lia; reflexivity. }
  rewrite E. pose proof (hits_nonneg rows cols (ksize / 2) y x (nz f)). pose proof (hits_nonneg rows cols (ksize / 2) y x (fun _ _ => true)).
  destruct (Z.eqb_spec (hits rows cols (ksize / 2) y x (nz f)) 0) as [E0|E0].
  - rewrite E0. destruct (Z.ltb_spec (hits rows cols (ksize / 2) y x (fun _ _ => true)) (2 * (255 * 0))); [ lia | reflexivity ].
  - destruct (Z.ltb_spec (hits rows cols (ksize / 2) y x (fun _ _ => true)) (2 * (255 * hits rows cols (ksize / 2) y x (nz f)))); [ reflexivity | lia ].
Qed.

(** ** NEON *)
Lemma w16_small v : 0 <= v < 65536 -> w16 v = v.
Proof. apply Z.mod_small. Qed.
Lemma psum8_ok a b c d e f g h : (forall v, In v [a; b; c; d; e; f; g; h] -> 0 <= v < 256) ->
  psum8 [a; b; c; d; e; f; g; h] = [a; a + b; a + b + c; a + b + c + d; a + b + c + d + e; a + b + c + d + e + f; a + b + c + d + e + f + g; a + b + c + d + e + f + g + h].
Proof.
  intro B. assert (Ba := B a ltac:(cbn; tauto)). assert (Bb := B b ltac:(cbn; tauto)). assert (Bc := B c ltac:(cbn; tauto)). assert (Bd := B d ltac:(cbn; tauto)).
  assert (Be := B e ltac:(cbn; tauto)). assert (Bf := B f ltac:(cbn; tauto)). assert (Bg := B g ltac:(cbn; tauto)). assert (Bh := B h ltac:(cbn; tauto)). clear B.
  assert (S1 : addq [a; b; c; d; e; f; g; h] (ext 1 [a; b; c; d; e; f; g; h]) = [a; a + b; b + c; c + d; d + e; e + f; f + g; g + h]).
  { unfold ext. cbn [repeat firstn app addq Nat.sub]. rewrite !w16_small by lia. repeat (apply f_equal2; [ lia | ]). reflexivity. }
  assert (S2 : addq [a; a + b; b + c; c + d; d + e; e + f; f + g; g + h] (ext 2 [a; a + b; b + c; c + d; d + e; e + f; f + g; g + h]) =
    [a; a + b; a + b + c; a + b + c + d; b + c + d + e; c + d + e + f; d + e + f + g; e + f + g + h]).
  { unfold ext. cbn [repeat firstn app addq Nat.sub]. rewrite !w16_small by lia. repeat (apply f_equal2; [ lia | ]). reflexivity. }
  unfold psum8. cbv zeta. rewrite S1, S2. unfold ext. cbn [repeat firstn app addq Nat.sub]. rewrite !w16_small by lia.
  repeat (apply f_equal2; [ lia | ]). reflexivity.
Qed.
Lemma s16_small v : 0 <= v < 32768 -> s16 v = v.
Proof. intro H. unfold s16. rewrite (proj2 (Z.ltb_lt v 32768)) by lia. reflexivity. Qed.
Lemma half_block_ok l c : length l = 8%nat -> (forall v, In v l -> 0 <= v < 256) -> half_block c l = scalar_row c l.
Proof.
  intros L B. destruct l as [|a [|b [|c0 [|d [|e [|f [|g [|h [|? ?]]]]]]]]]; try discriminate L.
  unfold half_block. rewrite psum8_ok by exact B.
  assert (Ba := B a ltac:(cbn; tauto)). assert (Bb := B b ltac:(cbn; tauto)). assert (Bc := B c0 ltac:(cbn; tauto)). assert (Bd := B d ltac:(cbn; tauto)).
  assert (Be := B e ltac:(cbn; tauto)). assert (Bf := B f ltac:(cbn; tauto)). assert (Bg := B g ltac:(cbn; tauto)). assert (Bh := B h ltac:(cbn; tauto)). clear B.
  cbn [map scalar_row]. rewrite !s16_small by lia. repeat (apply f_equal2; [ lia | ]). reflexivity.
Qed.
Lemma scalar_app : forall a b c, scalar_row c (a ++ b) = scalar_row c a ++ scalar_row (c + sum_list a) b.
Proof.
  induction a as [|v a IH]; intros b c; cbn [app scalar_row sum_list fold_right].
  - now rewrite Z.add_0_r.
  - rewrite IH. do 3 f_equal. unfold sum_list. lia.
Qed.
Lemma scalar_length : forall l c, length (scalar_row c l) = length l.
Proof. induction l; intro c; cbn; auto. Qed.
Lemma scalar_last : forall l c d, l <> [] -> last (scalar_row c l) d = c + sum_list l.
Proof.
  induction l as [|v l IH]; intros c d N; [ congruence |]. cbn [scalar_row]. destruct l as [|w l].
  - cbn. lia.
  - cbn [scalar_row last]. specialize (IH (c + v) d ltac:(congruence)). cbn [scalar_row last] in IH. cbn [last]. 
    rewrite IH. cbn [sum_list fold_right]. lia.
Qed.
Lemma neon_row_ok : forall fuel l c, (length l < fuel)%nat -> (forall v, In v l -> 0 <= v < 256) -> neon_row fuel c l = scalar_row c l.
Proof.
  induction fuel as [|k IH]; intros l c F B; [ lia |]. cbn [neon_row]. destruct (Nat.ltb_spec 16 (length l)) as [L|L]; [| reflexivity ].
  assert (E1 : length (firstn 8 l) = 8%nat) by (rewrite firstn_length; lia).
  assert (E2 : length (firstn 8 (skipn 8 l)) = 8%nat) by (rewrite firstn_length, skipn_length; lia).
  assert (I1 : forall v, In v (firstn 8 l) -> In v l) by (intros v I; rewrite <- (firstn_skipn 8 l); apply in_or_app; now left).
  assert (I2 : forall v, In v (skipn 8 l) -> In v l) by (intros v I; rewrite <- (firstn_skipn 8 l); apply in_or_app; now right).
  assert (D : l = firstn 8 l ++ firstn 8 (skipn 8 l) ++ skipn 16 l).
  { rewrite <- (firstn_skipn 8 l) at 1. f_equal. rewrite <- (firstn_skipn 8 (skipn 8 l)) at 1. f_equal.
    clear. do 8 (destruct l as [|? l]; [ reflexivity |]). reflexivity. }
  rewrite (half_block_ok (firstn 8 l)) by (auto; intros v I; apply B; auto).
  rewrite (half_block_ok (firstn 8 (skipn 8 l))).
  - rewrite !scalar_last by (intro Q; (rewrite Q in E1 || rewrite Q in E2); discriminate).
    rewrite IH.
    + transitivity (scalar_row c (firstn 8 l ++ firstn 8 (skipn 8 l) ++ skipn 16 l)); [ rewrite !scalar_app; reflexivity | now rewrite <- D ].
    + rewrite skipn_length. lia.
    + intros v I. apply B. rewrite D. apply in_or_app. right. apply in_or_app. now right.
  - exact E2.
  - intros v I. apply B, I2. rewrite <- (firstn_skipn 8 (skipn 8 l)). apply in_or_app. now left.
Qed.
Lemma scalar_nth : forall l c k, (k < length l)%nat -> nth k (scalar_row c l) 0 = c + sum_list (firstn (S k) l).
Proof.
  induction l as [|v l IH]; intros c k L; cbn [length] in L; [ lia |]. destruct k as [|k].
  - cbn. lia.
  - cbn [scalar_row nth]. rewrite IH by lia. cbn [firstn sum_list fold_right]. unfold sum_list. lia.
Qed.
Lemma acc_row_length : forall p c j v, length p = length c -> length (acc_row j v p c) = length c.
Proof. induction p as [|x p IH]; intros [|y c] j v L; cbn in *; auto; try discriminate. Qed.
Lemma acc_row_nth : forall p c j v k, length p = length c -> (k < length c)%nat ->
  0 <= nth k p 0 + nth k c 0 < 2147483648 -> nth k (acc_row j v p c) 0 = nth k p 0 + nth k c 0.
Proof.
  induction p as [|x p IH]; intros [|y c] j v k L K B; cbn [length] in *; try lia. destruct k as [|k]; cbn [nth acc_row] in *.
  - destruct (j <? v)%nat; auto. unfold sat32. lia.
  - apply IH; lia.
Qed.
Definition bytes (r : list Z) : Prop := forall v, In v r -> 0 <= v < 256.
Lemma bytes_sum r : bytes r -> 0 <= sum_list r <= 255 * Z.of_nat (length r).
Proof.
  induction r as [|v r IH]; intro B; cbn [sum_list fold_right length]; [ lia |]. assert (0 <= v < 256) by (apply B; now left).
  assert (0 <= sum_list r <= 255 * Z.of_nat (length r)) by (apply IH; intros w I; apply B; now right). unfold sum_list in *. lia.
Qed.
Lemma bytes_firstn r k : bytes r -> bytes (firstn k r).
Proof. intros B v I. apply B. rewrite <- (firstn_skipn k r). apply in_or_app. now left. Qed.
Lemma firstn_sum_bound r k : bytes r -> 0 <= sum_list (firstn k r) <= 255 * Z.of_nat (length r).
Proof. intro B. pose proof (bytes_sum _ (bytes_firstn r k B)). pose proof (firstn_length k r). lia. Qed.
Lemma acc_rows_nth vec cols : forall rs prev base i k,
  length prev = cols -> (forall r, In r rs -> length r = cols /\ bytes r) -> (i < length rs)%nat -> (k < cols)%nat ->
  (forall j, (j < cols)%nat -> 0 <= nth j prev 0 <= base) -> base + 255 * Z.of_nat cols * Z.of_nat (length rs) < 2147483648 ->
  nth k (nth i (acc_rows vec prev (map (scalar_row 0) rs)) []) 0 = nth k prev 0 + sum_list (map (fun r => sum_list (firstn (S k) r)) (firstn (S i) rs)).
Proof.
  induction rs as [|r rs IH]; intros prev base i k Lp R Li Lk Bp Q; cbn [length] in *; [ lia |].
  destruct (R r (or_introl eq_refl)) as [Lr Br]. cbn [map acc_rows]. cbv zeta.
  assert (N : forall j, (j < cols)%nat -> nth j (acc_row 0 vec prev (scalar_row 0 r)) 0 = nth j prev 0 + sum_list (firstn (S j) r)).
  { intros j Lj. rewrite acc_row_nth.
    - rewrite scalar_nth by lia. lia.
    - rewrite scalar_length. lia.
    - rewrite scalar_length. lia.
    - rewrite scalar_nth by lia. pose proof (firstn_sum_bound r (S j) Br). specialize (Bp j Lj). rewrite Nat2Z.inj_succ in Q. nia. }
  destruct i as [|i].
  - cbn [nth]. rewrite N by lia. cbn [firstn map sum_list fold_right]. unfold sum_list. lia.
  - cbn [nth]. rewrite (IH _ (base + 255 * Z.of_nat cols)); try lia.
    + rewrite N by lia. cbn [firstn map sum_list fold_right]. unfold sum_list. lia.
    + rewrite acc_row_length; rewrite scalar_length; lia.
    + intros r' I. apply R. now right.
    + intros j Lj. rewrite N by lia. pose proof (firstn_sum_bound r (S j) Br). specialize (Bp j Lj). lia.
Qed.
Lemma acc_rows_length vec : forall rs prev, length (acc_rows vec prev rs) = length rs.
Proof. induction rs as [|r rs IH]; intro prev; cbn; auto. Qed.
Lemma neon_rows_map m cols : byte_matrix cols m -> map (fun r => neon_row (S (length r)) 0 r) m = map (scalar_row 0) m.
Proof. intro B. apply map_ext_in. intros r I. apply neon_row_ok; [ lia |]. apply (B r I). Qed.
Theorem neon_integral_ok m cols y x : byte_matrix cols m -> m <> [] -> (0 < cols)%nat -> 255 * Z.of_nat cols * Z.of_nat (length m) < 2147483648 ->
  (y <= length m)%nat -> (x <= cols)%nat -> nth x (nth y (neon_integral m) []) 0 = block_sum m y x.
Proof.
  intros B NE C Q Y X. unfold neon_integral. rewrite (neon_rows_map m cols B).
  destruct m as [|r0 rs]; [ congruence |]. cbn [map].
  destruct (B r0 (or_introl eq_refl)) as [L0 B0]. rewrite scalar_length, L0.
  match goal with |- context [nth y (?hd :: ?t) []] =>
    change t with (map (cons 0) (scalar_row 0 r0 :: acc_rows (vec_part cols) (scalar_row 0 r0) (map (scalar_row 0) rs))) end.
  destruct y as [|y].
  - cbn [nth]. unfold block_sum. cbn [firstn map]. cbn [sum_list fold_right]. generalize (S cols) as n. clear. revert x.
    intros x n. revert x. induction n as [|n IH]; intros [|x]; cbn [repeat nth]; auto.
  - match goal with |- context [nth (S y) (?hd :: ?t) []] => change (nth (S y) (hd :: t) []) with (nth y t []) end. destruct x as [|x].
    + unfold block_sum. cbn [length] in Y.
      assert (Z1 : nth 0 (nth y (map (cons 0) (scalar_row 0 r0 :: acc_rows (vec_part cols) (scalar_row 0 r0) (map (scalar_row 0) rs))) []) 0 = 0).
      { destruct (nth_in_or_default y (map (cons 0) (scalar_row 0 r0 :: acc_rows (vec_part cols) (scalar_row 0 r0) (map (scalar_row 0) rs))) []) as [I|E].
        - apply in_map_iff in I. destruct I as (u & <- & _). reflexivity.
        - rewrite E. reflexivity. }
      rewrite Z1. symmetry. clear. generalize (firstn (S y) (r0 :: rs)). intro l. induction l as [|a l IH]; cbn [map sum_list fold_right firstn]; auto.
    + cbn [length] in Y. rewrite (nth_indep _ [] (0 :: [])) by (rewrite map_length; cbn [length]; rewrite acc_rows_length, map_length; lia).
      rewrite map_nth. unfold block_sum. destruct y as [|y]; cbn [nth].
      * rewrite scalar_nth by lia. cbn [firstn map sum_list fold_right]. unfold sum_list. cbn [firstn]. lia.
      * rewrite (acc_rows_nth (vec_part cols) cols rs (scalar_row 0 r0) (255 * Z.of_nat cols)); try lia.
        -- rewrite scalar_nth by lia. cbn [firstn map sum_list fold_right]. unfold sum_list. cbn [firstn fold_right]. lia.
        -- now rewrite scalar_length.
        -- intros r I. destruct (B r (or_intror I)) as [Lr Br]. auto.
        -- intros j Lj. rewrite scalar_nth by lia. pose proof (firstn_sum_bound r0 (S j) B0). lia.
        -- cbn [length] in Q. rewrite Nat2Z.inj_succ in Q. lia.
Qed.
