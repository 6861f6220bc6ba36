From Coq Require Import ZArith List Bool Lia.
From Coq Require Import ZifyBool.
From Verif Require Import Model.Distances Spec.Distances.
Import ListNotations.
Open Scope Z_scope.

Lemma sop_in : forall w x, - 2 ^ (w - 1) <= x < 2 ^ (w - 1) -> sop w x = Some x.
Proof. intros w x H. unfold sop. destruct (Z.leb_spec (- 2 ^ (w - 1)) x), (Z.ltb_spec x (2 ^ (w - 1))); simpl; (reflexivity || lia). Qed.
Lemma sop_out : forall w x, ~ (- 2 ^ (w - 1) <= x < 2 ^ (w - 1)) -> sop w x = None.
Proof. intros w x H. unfold sop. destruct (Z.leb_spec (- 2 ^ (w - 1)) x), (Z.ltb_spec x (2 ^ (w - 1))); simpl; (reflexivity || lia). Qed.

Lemma diff_bound : forall w a b, width w -> same_type w a b -> Z.abs (a - b) < 2 ^ w.
Proof.
  intros w a b Hw H. unfold same_type, in_u, in_s in H.
  assert (E : 2 ^ w = 2 * 2 ^ (w - 1)).
  { rewrite <- Z.pow_succ_r by (destruct Hw as [->|[->| ->]]; lia). f_equal. lia. }
  destruct H as [[? ?]|[? ?]]; lia.
Qed.

Lemma arith_fits : forall w x, width w -> Z.abs x < 2 ^ w -> sop (arith_width w) x = Some x.
Proof.
  intros w x Hw H. apply sop_in. unfold arith_width.
  destruct Hw as [->|[->| ->]]; cbn [Z.leb Z.compare Pos.compare Pos.compare_cont]; simpl in *; lia.
Qed.

Lemma L1dist_exact : forall w a b, width w -> same_type w a b -> L1dist w a b = Some (Z.abs (a - b)).
Proof.
  intros w a b Hw H. pose proof (diff_bound w a b Hw H) as Hd. unfold L1dist.
  rewrite arith_fits by assumption. cbn [bind]. rewrite arith_fits by (try assumption; lia).
  cbn [bind]. unfold uconv. rewrite Z.mod_small by lia. reflexivity.
Qed.

Lemma uconv_add : forall w a b, uconv w (uconv w a + b) = uconv w (a + b).
Proof. intros. unfold uconv. apply Zplus_mod_idemp_l. Qed.
Lemma uconv_add_r : forall w a b, uconv w (a + uconv w b) = uconv w (a + b).
Proof. intros. unfold uconv. apply Zplus_mod_idemp_r. Qed.

Lemma L1dist_arr_mod : forall w wo xs ys acc, width w -> 0 <= wo -> Forall2 (same_type w) xs ys -> 0 <= acc < 2 ^ wo ->
  L1dist_arr w wo xs ys acc = Some ((acc + sum_abs_diff xs ys) mod 2 ^ wo).
Proof.
  intros w wo xs ys acc Hw Hwo H. revert acc. induction H as [|x y r s Hxy Hrs IH]; intros acc Ha.
  - cbn [L1dist_arr sum_abs_diff]. rewrite Z.add_0_r, Z.mod_small by exact Ha. reflexivity.
  - cbn [L1dist_arr sum_abs_diff]. rewrite L1dist_exact by assumption. cbn [bind].
    rewrite IH by (apply Z.mod_pos_bound; lia). f_equal. fold (uconv wo (acc + (Z.abs (x - y) + sum_abs_diff r s))).
    rewrite uconv_add_r. unfold uconv. rewrite Zplus_mod_idemp_l. f_equal. lia.
Qed.

Lemma sum_abs_diff_nonneg : forall xs ys, 0 <= sum_abs_diff xs ys.
Proof. induction xs as [|x r IH]; intros [|y s]; simpl; try lia. specialize (IH s). lia. Qed.

Lemma L1dist_masked_exact : forall w xs ys m acc, width w -> Forall2 (Forall2 (same_type w)) xs ys ->
  length m = length xs -> 0 <= acc -> acc + masked_sum xs ys m < 2 ^ 64 ->
  L1dist_masked w xs ys (Some m) acc = Some (acc + masked_sum xs ys m).
Proof.
  intros w xs ys m acc Hw H. revert m acc. induction H as [|x y r s Hxy Hrs IH]; intros m acc Hl Ha Hb.
  - destruct m; [|discriminate]. simpl. rewrite Z.add_0_r. reflexivity.
  - destruct m as [|k ks]; [discriminate|]. cbn [L1dist_masked masked_sum] in *. injection Hl as Hl.
    assert (Hn : forall a b c, 0 <= masked_sum a b c).
    { induction a as [|? ? IHa]; intros [|? ?] [|? ?]; simpl; try lia.
      pose proof (sum_abs_diff_nonneg a l). specialize (IHa l0 l1). destruct (z =? 0); lia. }
    pose proof (Hn r s ks). pose proof (sum_abs_diff_nonneg x y).
    destruct (k =? 0); simpl negb; cbv iota in *.
    + rewrite IH by lia. f_equal.
    + rewrite L1dist_arr_mod by (try assumption; lia). cbn [bind]. rewrite Z.add_0_l.
      rewrite (Z.mod_small (sum_abs_diff x y)) by lia. unfold uconv. rewrite Z.mod_small by lia.
      rewrite IH by lia. f_equal. lia.
Qed.

(** ** squared L2 *)
Lemma L2sqr_8_exact : forall a b, same_type 8 a b -> L2sqrdist 8 a b = Some ((a - b) ^ 2).
Proof.
  intros a b H. pose proof (diff_bound 8 a b (or_introl eq_refl) H) as Hd. unfold L2sqrdist.
  rewrite arith_fits by (try assumption; left; reflexivity). cbn [bind]. change (arith_width 8) with 32.
  assert (Hs : 0 <= (a - b) * (a - b) < 2 ^ 16) by (change (2 ^ 8) with 256 in Hd; change (2 ^ 16) with 65536; nia).
  rewrite sop_in by (change (2 ^ (32 - 1)) with 2147483648; change (2 ^ 16) with 65536 in Hs; lia).
  cbn [bind]. unfold uconv. change (2 * 8) with 16. rewrite Z.mod_small by exact Hs. f_equal. ring.
Qed.

Lemma L2sqr_16 : forall a b, same_type 16 a b ->
  L2sqrdist 16 a b = if Z.abs (a - b) <=? 46340 then Some ((a - b) ^ 2) else None.
Proof.
  intros a b H. pose proof (diff_bound 16 a b (or_intror (or_introl eq_refl)) H) as Hd. unfold L2sqrdist.
  rewrite arith_fits by (try assumption; right; left; reflexivity). cbn [bind]. change (arith_width 16) with 32.
  destruct (Z.leb_spec (Z.abs (a - b)) 46340) as [Hl|Hl].
  - assert (Hs : 0 <= (a - b) * (a - b) < 2147483648) by nia.
    rewrite sop_in by (change (2 ^ (32 - 1)) with 2147483648; lia). cbn [bind]. unfold uconv.
    change (2 ^ (2 * 16)) with 4294967296. rewrite Z.mod_small by lia. f_equal. ring.
  - rewrite sop_out; [reflexivity|]. change (2 ^ (32 - 1)) with 2147483648.
    assert (2147483648 <= (a - b) * (a - b)) by nia. lia.
Qed.

Lemma L2sqr_arr8_mod : forall wo xs ys acc, 0 <= wo -> Forall2 (same_type 8) xs ys -> 0 <= acc < 2 ^ wo ->
  L2sqrdist_arr 8 wo xs ys acc = Some ((acc + sum_sqr_diff xs ys) mod 2 ^ wo).
Proof.
  intros wo xs ys acc Hwo H. revert acc. induction H as [|x y r s Hxy Hrs IH]; intros acc Ha.
  - cbn [L2sqrdist_arr sum_sqr_diff]. rewrite Z.add_0_r, Z.mod_small by exact Ha. reflexivity.
  - cbn [L2sqrdist_arr sum_sqr_diff]. rewrite L2sqr_8_exact by assumption. cbn [bind].
    rewrite IH by (apply Z.mod_pos_bound; lia). f_equal. rewrite uconv_add_r. unfold uconv.
    rewrite Zplus_mod_idemp_l. f_equal. lia.
Qed.

(** ** colour distortion *)
Lemma dot_comm : forall xs ys, dot xs ys = dot ys xs.
Proof. induction xs as [|x r IH]; intros [|y s]; simpl; try reflexivity. rewrite IH. ring. Qed.
Lemma norm2_nonneg : forall xs, 0 <= norm2 xs.
Proof. unfold norm2. induction xs as [|x r IH]; simpl; [lia|]. nia. Qed.

(** Cauchy-Schwarz over the integers *)
Lemma cauchy_schwarz : forall xs ys, length xs = length ys -> dot xs ys * dot xs ys <= norm2 xs * norm2 ys.
Proof.
  induction xs as [|x r IH]; intros [|y s] Hl; try discriminate.
  injection Hl as Hl. specialize (IH s Hl).
  unfold norm2 in *. cbn [dot] in *.
  set (a := dot r r) in *. set (b := dot s s) in *. set (m := dot r s) in *.
  assert (Ha : 0 <= a) by (apply norm2_nonneg). assert (Hb : 0 <= b) by (apply norm2_nonneg).
  clearbody a b m.
  (* (xy+m)^2 <= (x^2+a)(y^2+b)  <=  2xym <= x^2 b + a y^2 *)
  assert (H2 : 2 * (x * y * m) <= x * x * b + a * (y * y)).
  { destruct (Z.eq_dec a 0) as [Za|Za].
    - subst a. assert (m = 0) by nia. subst m. nia.
    - (* a(x^2 b + a y^2 - 2xym) >= (x m)^2 + (a y)^2 - 2 (x m)(a y) >= 0 *)
      assert (0 <= a * (x * x * b + a * (y * y) - 2 * (x * y * m))); [|nia].
      assert (0 <= (x * m - a * y) * (x * m - a * y)) by apply Z.square_nonneg.
      assert (x * x * (m * m) <= x * x * (a * b)) by (apply Z.mul_le_mono_nonneg_l; [apply Z.square_nonneg|exact IH]).
      nia. }
  nia.
Qed.

Lemma bytes_dot_bound : forall xs ys, Forall (in_u 8) xs -> Forall (in_u 8) ys ->
  0 <= dot xs ys <= 65025 * Z.of_nat (length xs).
Proof.
  induction xs as [|x r IH]; intros ys Hx Hy; [simpl; lia|]. destruct ys as [|y s]; [simpl; lia|].
  inversion Hx as [|? ? Hx1 Hx2]; subst. inversion Hy as [|? ? Hy1 Hy2]; subst.
  specialize (IH s Hx2 Hy2). cbn [dot length]. rewrite Nat2Z.inj_succ. unfold in_u in *. 
  change (2 ^ 8) with 256 in *. nia.
Qed.

Lemma cdist_sums_exact : forall xs ys c b m, length xs = length ys -> Forall (in_u 8) xs -> Forall (in_u 8) ys ->
  0 <= c -> 0 <= b -> 0 <= m ->
  c + norm2 xs < 2 ^ 64 -> b + norm2 ys < 2 ^ 64 -> m + dot xs ys < 2 ^ 64 ->
  cdist_sums 8 xs ys c b m = Some (c + norm2 xs, b + norm2 ys, m + dot xs ys).
Proof.
  induction xs as [|x r IH]; intros [|y s] c b m Hl Hx Hy Hc Hb Hm H1 H2 H3; try discriminate.
  - unfold norm2. simpl. rewrite !Z.add_0_r. reflexivity.
  - injection Hl as Hl. inversion Hx as [|? ? Hx1 Hx2]; subst. inversion Hy as [|? ? Hy1 Hy2]; subst.
    unfold in_u in Hx1, Hy1. change (2 ^ 8) with 256 in *.
    unfold norm2 in *. cbn [dot cdist_sums] in *. change (arith_width 8) with 32.
    pose proof (norm2_nonneg r). pose proof (norm2_nonneg s). pose proof (bytes_dot_bound r s Hx2 Hy2).
    unfold norm2 in *.
    assert (Bxx : 0 <= x * x < 65536) by (clear - Hx1; nia).
    assert (Byy : 0 <= y * y < 65536) by (clear - Hy1; nia).
    assert (Bxy : 0 <= x * y < 65536) by (clear - Hx1 Hy1; nia).
    rewrite !sop_in by (change (2 ^ (32 - 1)) with 2147483648; lia). cbn [bind].
    assert (Hu : forall z, 0 <= z < 65536 -> uconv 64 z = z).
    { intros z Hz. unfold uconv. apply Z.mod_small. change (2 ^ 64) with 18446744073709551616. lia. }
    rewrite (Hu (x * x) Bxx), (Hu (y * y) Byy), (Hu (x * y) Bxy).
    unfold uconv. rewrite !Z.mod_small by lia.
    rewrite IH; try assumption; try lia. f_equal. f_equal; [f_equal|]; ring.
Qed.

Lemma non_const_false : forall xs ys p q, length xs = length ys -> non_const p q xs ys = false ->
  Forall (fun x => x = p) xs /\ Forall (fun y => y = q) ys.
Proof.
  induction xs as [|x r IH]; intros [|y s] p q Hl H; try discriminate; [split; constructor|].
  cbn [non_const] in H. apply orb_false_iff in H. destruct H as [H1 H2]. apply orb_false_iff in H1. destruct H1 as [Hx Hy].
  apply negb_false_iff, Z.eqb_eq in Hx. apply negb_false_iff, Z.eqb_eq in Hy. subst x y.
  injection Hl as Hl. destruct (IH s p q Hl H2). split; constructor; auto.
Qed.

Lemma non_const_grey : forall xs ys p q, Forall (fun x => x = p) xs -> Forall (fun y => y = q) ys -> non_const p q xs ys = false.
Proof.
  induction xs as [|x r IH]; intros [|y s] p q Hx Hy; try reflexivity.
  inversion Hx; subst. inversion Hy; subst. cbn [non_const]. rewrite !Z.eqb_refl. simpl. apply IH; assumption.
Qed.

Lemma non_null_false : forall xs ys, length xs = length ys -> (non_null xs ys = false <-> xs = ys).
Proof.
  induction xs as [|x r IH]; intros [|y s] Hl; try discriminate; [tauto|].
  injection Hl as Hl. cbn [non_null]. rewrite orb_false_iff, negb_false_iff, Z.eqb_eq, IH by exact Hl.
  split; [intros [-> ->]; reflexivity|intros E; injection E; auto].
Qed.

Lemma cdist_value : forall xs ys, (2 <= length xs)%nat -> length xs = length ys -> Z.of_nat (length xs) <= 65536 ->
  Forall (in_u 8) xs -> Forall (in_u 8) ys -> xs <> ys -> ~ (grey xs /\ grey ys) ->
  exists X r, residual_ceil xs ys X /\ 0 <= X <= norm2 xs /\ cdist 8 xs ys = Some r /\ 0 <= r /\ r * r <= X < (r + 1) * (r + 1).
Proof.
  intros xs ys H2 Hl Hlen Hx Hy Hne Hg.
  destruct xs as [|x r]; [simpl in H2; lia|]. destruct ys as [|y s]; [discriminate|].
  unfold cdist.
  assert (E1 : non_const x y r s = true).
  { destruct (non_const x y r s) eqn:E; [reflexivity|exfalso]. apply non_const_false in E; [|injection Hl; auto].
    destruct E. apply Hg. split; [exists x|exists y]; constructor; auto. }
  assert (E2 : non_null (x :: r) (y :: s) = true).
  { destruct (non_null (x :: r) (y :: s)) eqn:E; [reflexivity|exfalso]. apply non_null_false in E; [|exact Hl]. auto. }
  rewrite E1, E2. cbn [negb orb]. set (xs := x :: r) in *. set (ys := y :: s) in *.
  pose proof (bytes_dot_bound xs xs Hx Hx) as Bx. pose proof (bytes_dot_bound ys ys Hy Hy) as By.
  pose proof (bytes_dot_bound xs ys Hx Hy) as Bm. fold (norm2 xs) in Bx. fold (norm2 ys) in By.
  rewrite <- Hl in By.
  assert (Hn : 65025 * Z.of_nat (length xs) <= 4261478400) by lia.
  rewrite cdist_sums_exact; try assumption; try lia.
  cbn [bind]. rewrite !Z.add_0_l.
  pose proof (cauchy_schwarz xs ys Hl) as CS.
  set (c := norm2 xs) in *. set (b := norm2 ys) in *. set (m := dot xs ys) in *.
  assert (Hmm : uconv 64 (m * m) = m * m).
  { unfold uconv. apply Z.mod_small. change (2 ^ 64) with 18446744073709551616. nia. }
  assert (Hb1 : 0 < Z.max b 1) by lia.
  pose proof (Z.div_mod (m * m) (Z.max b 1)) as Hdm. pose proof (Z.mod_pos_bound (m * m) (Z.max b 1) Hb1) as Hr.
  set (q := m * m / Z.max b 1) in *. set (rr := m * m mod Z.max b 1) in *.
  assert (Hq0 : 0 <= q) by (apply Z.div_pos; nia).
  assert (Hqc : q <= c).
  { apply Z.div_le_upper_bound; [exact Hb1|]. destruct (Z.eq_dec b 0) as [Zb|Zb].
    - assert (m * m <= 0) by (clearbody c b m; subst b; lia). assert (H0 : m = 0) by (clearbody m; nia). rewrite H0. nia.
    - rewrite Z.max_l by lia. lia. }
  assert (HX : cdist_radicand c b m = c - q).
  { unfold cdist_radicand. rewrite Hmm. fold q. unfold uconv. apply Z.mod_small. lia. }
  exists (c - q), (Z.sqrt (c - q)). rewrite HX. split.
  { unfold residual_ceil. fold c b m. nia. }
  split; [lia|]. split; [reflexivity|].
  pose proof (Z.sqrt_spec (c - q) ltac:(lia)) as Hs. unfold Z.succ in Hs. split; [apply Z.sqrt_nonneg|exact Hs].
Qed.

Lemma cdist_shortcut : forall xs ys, length xs = length ys -> xs = ys \/ (grey xs /\ grey ys) -> cdist 8 xs ys = Some 0.
Proof.
  intros xs ys Hl H. destruct xs as [|x r]; [reflexivity|]. destruct ys as [|y s]; [discriminate|].
  unfold cdist. destruct H as [E|[[g Hg] [h Hh]]].
  - apply non_null_false in E; [|exact Hl]. rewrite E, orb_true_r. reflexivity.
  - inversion Hg; subst. inversion Hh; subst. rewrite non_const_grey by assumption. reflexivity.
Qed.

Lemma dot_scale_l : forall k ys zs, dot (map (Z.mul k) ys) zs = k * dot ys zs.
Proof. intros k. induction ys as [|y s IH]; intros [|z t]; simpl; try ring. rewrite IH. ring. Qed.

Lemma proportional_cs : forall xs ys p q, length xs = length ys -> map (Z.mul q) xs = map (Z.mul p) ys ->
  q * q * norm2 xs = p * p * norm2 ys /\ q * dot xs ys = p * norm2 ys.
Proof.
  intros xs ys p q Hl H. split.
  - unfold norm2. transitivity (dot (map (Z.mul q) xs) (map (Z.mul q) xs)).
    + rewrite dot_scale_l, (dot_comm xs (map _ _)), dot_scale_l. ring.
    + rewrite H. rewrite dot_scale_l, (dot_comm ys (map _ _)), dot_scale_l. ring.
  - unfold norm2. rewrite <- dot_scale_l, H, dot_scale_l. reflexivity.
Qed.

Lemma cdist_proportional : forall xs ys p q, (2 <= length xs)%nat -> length xs = length ys -> Z.of_nat (length xs) <= 65536 ->
  Forall (in_u 8) xs -> Forall (in_u 8) ys -> norm2 ys <> 0 -> q <> 0 -> map (Z.mul q) xs = map (Z.mul p) ys ->
  cdist 8 xs ys = Some 0.
Proof.
  intros xs ys p q H2 Hl Hlen Hx Hy Hn Hq Hp.
  destruct (list_eq_dec Z.eq_dec xs ys) as [E|E]; [apply cdist_shortcut; auto|].
  assert (Hdec : (grey xs /\ grey ys) \/ ~ (grey xs /\ grey ys)).
  { assert (D : forall l, grey l \/ ~ grey l).
    { intros [|a t]; [left; exists 0; constructor|].
      destruct (Forall_dec (fun z => z = a) (fun z => Z.eq_dec z a) t) as [F|F].
      - left. exists a. constructor; auto.
      - right. intros [g Hg]. inversion Hg; subst. auto. }
    destruct (D xs), (D ys); tauto. }
  destruct Hdec as [G|G]; [apply cdist_shortcut; auto|].
  destruct (cdist_value xs ys H2 Hl Hlen Hx Hy E G) as (X & r & HX & HXb & Hr & Hr0 & Hs).
  destruct (proportional_cs xs ys p q Hl Hp) as [P1 P2].
  unfold residual_ceil in HX. pose proof (norm2_nonneg ys). rewrite Z.max_l in HX by lia.
  assert (Z0 : norm2 xs * norm2 ys - dot xs ys * dot xs ys = 0).
  { assert (q * q * (norm2 xs * norm2 ys - dot xs ys * dot xs ys) = 0); [|nia].
    replace (q * q * (norm2 xs * norm2 ys - dot xs ys * dot xs ys))
      with ((q * q * norm2 xs) * norm2 ys - (q * dot xs ys) * (q * dot xs ys)) by ring.
    rewrite P1, P2. ring. }
  rewrite Z0 in HX. assert (X = 0) by nia. subst X. assert (r = 0) by nia. subst r. exact Hr.
Qed.

Lemma L1dist_arr_mod0 : forall w wo xs ys, width w -> 0 <= wo -> Forall2 (same_type w) xs ys ->
  L1dist_arr w wo xs ys 0 = Some (sum_abs_diff xs ys mod 2 ^ wo).
Proof. intros w wo xs ys Hw Hwo H. rewrite L1dist_arr_mod; auto. lia. Qed.
Lemma L2sqr_arr8_mod0 : forall wo xs ys, 0 <= wo -> Forall2 (same_type 8) xs ys ->
  L2sqrdist_arr 8 wo xs ys 0 = Some (sum_sqr_diff xs ys mod 2 ^ wo).
Proof. intros wo xs ys Hwo H. rewrite L2sqr_arr8_mod; auto. lia. Qed.
Lemma sum_sqr_diff_nonneg : forall xs ys, 0 <= sum_sqr_diff xs ys.
Proof. induction xs as [|x r IH]; intros [|y s]; try (simpl; lia). cbn [sum_sqr_diff]. specialize (IH s). nia. Qed.

Lemma cmix_value : forall l1 cd, 0 <= l1 -> 0 <= cd -> l1 + 8 * cd < 2 ^ 64 ->
  2 * cmixdist l1 cd <= l1 + 8 * cd < 2 * cmixdist l1 cd + 2.
Proof.
  intros l1 cd H1 H2 H. unfold cmixdist, uconv. pose proof (Z.div_mod l1 2 ltac:(lia)). pose proof (Z.mod_pos_bound l1 2 ltac:(lia)).
  rewrite Z.mod_small by lia. lia.
Qed.
Lemma cmix_px_value : forall xs ys cd, Forall2 (same_type 8) xs ys -> cdist 8 xs ys = Some cd -> 0 <= cd < 2 ^ 32 ->
  exists v, cmixdist_px xs ys = Some v /\ 2 * v <= sum_abs_diff xs ys mod 256 + 8 * cd < 2 * v + 2.
Proof.
  intros xs ys cd T E B. unfold cmixdist_px. rewrite (L1dist_arr_mod0 8 8 xs ys) by (try assumption; (left; reflexivity) || lia). cbn [bind]. rewrite E. cbn [bind].
  eexists. split; [ reflexivity |]. change (2 ^ 8) with 256. pose proof (Z.mod_pos_bound (sum_abs_diff xs ys) 256 ltac:(lia)). apply cmix_value; lia.
Qed.
