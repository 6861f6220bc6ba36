(* Bounds and meaning of the costs of the resegmentation graph. *)
From Coq Require Import ZArith Reals List Bool Lia Lra.
From Verif Require Import Lib.Grid Model.ResegmGraph Spec.ResegmGraph Model.ResegmCosts Spec.ResegmCosts.
Import ListNotations.
Open Scope R_scope.

(* --- conversions to costs --- *)
Lemma cast_spec x : 0 <= x -> IZR (cost_cast x) <= x < IZR (cost_cast x) + 1 /\ (0 <= cost_cast x)%Z.
Proof.
  intro H. unfold cost_cast. destruct (Rle_dec 0 x) as [_|N]; [| lra ]. destruct (base_Int_part x) as [A B]. split; [ lra |].
  apply Z.lt_succ_r, lt_IZR. rewrite succ_IZR. lra.
Qed.
Lemma cast_between x n : IZR n <= x < IZR n + 1 -> (0 <= n)%Z -> cost_cast x = n.
Proof.
  intros H P. apply IZR_le in P. destruct (cast_spec x ltac:(lra)) as [A B]. assert (cost_cast x < n + 1)%Z by (apply lt_IZR; rewrite plus_IZR; lra). assert (n < cost_cast x + 1)%Z by (apply lt_IZR; rewrite plus_IZR; lra). lia.
Qed.
Lemma cast_mono x y : 0 <= x <= y -> (cost_cast x <= cost_cast y)%Z.
Proof.
  intro H. destruct (cast_spec x ltac:(lra)) as [A _]. destruct (cast_spec y ltac:(lra)) as [B _]. assert (cost_cast x < cost_cast y + 1)%Z; [| lia ]. apply lt_IZR. rewrite plus_IZR. lra.
Qed.
Lemma cast_upto x n : 0 <= x < IZR n + 1 -> (cost_cast x <= n)%Z.
Proof. intro H. destruct (cast_spec x ltac:(lra)) as [A _]. assert (cost_cast x < n + 1)%Z; [| lia ]. apply lt_IZR. rewrite plus_IZR. lra. Qed.

(* --- distances --- *)
Definition closest (test : Z -> Z -> bool) (r c : Z) (l : list (Z * Z)) (o : option Z) : Prop :=
  match o with
  | None => forall p, In p l -> test (fst p) (snd p) = false
  | Some d => (exists p, In p l /\ test (fst p) (snd p) = true /\ d = square_to r c p) /\ forall p, In p l -> test (fst p) (snd p) = true -> (d <= square_to r c p)%Z
  end.
Lemma nearest_fold test r c l : closest test r c l
  (fold_left (fun best p => if test (fst p) (snd p) then Some (match best with Some d => Z.min d (square_to r c p) | None => square_to r c p end) else best) l None).
Proof.
  induction l as [|a l IH] using rev_ind; [ intros p [] |]. rewrite fold_left_app. cbn [fold_left].
  destruct (fold_left _ l None) as [d|]; destruct (test (fst a) (snd a)) eqn:T; cbn [closest] in *.
  - destruct IH as [(p & Ip & Tp & Ep) M]. split.
    + destruct (Z.min_spec d (square_to r c a)) as [[_ ->]|[_ ->]]; [ exists p | exists a ]; (split; [ apply in_or_app; cbn; tauto | auto ]).
    + intros q Iq Tq. apply in_app_or in Iq. destruct Iq as [Iq|[<-|[]]]; [ specialize (M q Iq Tq) |]; lia.
  - destruct IH as [(p & Ip & Tp & Ep) M]. split; [ exists p; split; [ apply in_or_app; tauto | auto ] |]. intros q Iq Tq. apply in_app_or in Iq. destruct Iq as [Iq|[<-|[]]]; [ auto | congruence ].
  - split; [ exists a; split; [ apply in_or_app; cbn; tauto | auto ] |]. intros q Iq Tq. apply in_app_or in Iq. destruct Iq as [Iq|[<-|[]]]; [ rewrite (IH q Iq) in Tq; discriminate | lia ].
  - intros q Iq. apply in_app_or in Iq. destruct Iq as [Iq|[<-|[]]]; auto.
Qed.
Lemma grid_image rows cols p : In p (grid 0 rows 0 cols) <-> in_image rows cols (fst p) (snd p).
Proof. unfold in_image. rewrite in_grid. split; intros [A B]; split; lia. Qed.
Lemma square_nonneg r c p : (0 <= square_to r c p)%Z.
Proof. unfold square_to. pose proof (Z.square_nonneg (fst p - r)). pose proof (Z.square_nonneg (snd p - c)). lia. Qed.
Lemma nearest_none rows cols test r c : nearest rows cols test r c = None -> forall y x, in_image rows cols y x -> test y x = false.
Proof. intros E y x I. pose proof (nearest_fold test r c (grid 0 rows 0 cols)) as N. unfold nearest in E. rewrite E in N. apply (N (y, x)). now apply grid_image. Qed.
Lemma nearest_some rows cols test r c d : nearest rows cols test r c = Some d -> (0 <= d)%Z /\ distance_to rows cols (fun y x => test y x = true) r c (sqrt (IZR d)).
Proof.
  intro E. pose proof (nearest_fold test r c (grid 0 rows 0 cols)) as N. unfold nearest in E. rewrite E in N. destruct N as [(p & Ip & Tp & ->) M]. split; [ apply square_nonneg |]. split.
  - exists (fst p), (snd p). rewrite <- grid_image. auto.
  - intros y x I T. apply sqrt_le_1_alt, IZR_le. apply (M (y, x)); [ now apply grid_image | exact T ].
Qed.
Lemma distance_unique rows cols P r c d e : distance_to rows cols P r c d -> distance_to rows cols P r c e -> d = e.
Proof. intros [(y & x & I & Q & ->) M] [(y' & x' & I' & Q' & ->) M']. apply Rle_antisym; [ now apply M | now apply M' ]. Qed.
Lemma shape_some d : (0 <= d)%Z -> shape_dist (Some d) = Rmin (exp (sqrt (IZR d) / 10) - 1) 10.
Proof. intros _. unfold shape_dist, px_max. rewrite <- exp_Ropp. do 3 f_equal. field. Qed.
Lemma shape_range o : (forall d, o = Some d -> (0 <= d)%Z) -> 0 <= shape_dist o <= 10.
Proof.
  intro H. destruct o as [d|]; [| unfold shape_dist, px_max; lra ]. rewrite shape_some by now apply H. pose proof (sqrt_pos (IZR d)). assert (1 <= exp (sqrt (IZR d) / 10)) by (rewrite <- exp_0; destruct (Req_dec (sqrt (IZR d)) 0) as [->|N]; [ unfold Rdiv; rewrite Rmult_0_l; lra | apply Rlt_le, exp_increasing; lra ]).
  split; [ apply Rmin_glb; lra | apply Rmin_r ].
Qed.
Lemma shape_near rows cols test r c : 0 <= shape_dist (nearest rows cols test r c) <= 10.
Proof. apply shape_range. intros d E. now apply nearest_some in E. Qed.
Lemma shape_value rows cols test r c :
  (forall d, distance_to rows cols (fun y x => test y x = true) r c d -> shape_dist (nearest rows cols test r c) = Rmin (exp (d / 10) - 1) 10) /\
  ((forall y x, in_image rows cols y x -> test y x = false) -> shape_dist (nearest rows cols test r c) = 10) /\
  ((exists y x, in_image rows cols y x /\ test y x = true) -> exists d, distance_to rows cols (fun y x => test y x = true) r c d).
Proof.
  destruct (nearest rows cols test r c) as [d|] eqn:E.
  - destruct (nearest_some _ _ _ _ _ _ E) as [P D]. split; [| split ].
    + intros e X. rewrite (distance_unique _ _ _ _ _ _ _ X D). now apply shape_some.
    + intro N. destruct D as [(y & x & I & T & _) _]. rewrite (N y x I) in T. discriminate.
    + intros _. eauto.
  - pose proof (nearest_none _ _ _ _ _ E) as N. split; [| split ].
    + intros e [(y & x & I & T & _) _]. rewrite (N y x I) in T. discriminate.
    + reflexivity.
    + intros (y & x & I & T). rewrite (N y x I) in T. discriminate.
Qed.
Lemma distance_zero r c y x : distance r c y x = 0 <-> y = r /\ x = c.
Proof.
  unfold distance. split; [| intros [-> ->]; rewrite !Z.sub_diag; cbn; apply sqrt_0 ]. pose proof (Z.square_nonneg (y - r)) as A. pose proof (Z.square_nonneg (x - c)) as B. intro E. apply sqrt_eq_0 in E; [| apply IZR_le; lia ]. apply eq_IZR in E. assert (E1 : ((y - r) * (y - r) = 0)%Z) by lia. assert (E2 : ((x - c) * (x - c) = 0)%Z) by lia. apply Z.mul_eq_0 in E1, E2. lia.
Qed.
Lemma exp_one_pos x : 0 < x -> 1 < exp x.
Proof. intro H. rewrite <- exp_0. now apply exp_increasing. Qed.
Lemma shape_zero rows cols test r c : in_image rows cols r c -> shape_dist (nearest rows cols test r c) = 0 <-> test r c = true.
Proof.
  intro I. destruct (shape_value rows cols test r c) as (V & N & X). split.
  - intro E. destruct (nearest rows cols test r c) as [d|] eqn:F; [| cbn in E; unfold px_max in E; lra ]. destruct (nearest_some _ _ _ _ _ _ F) as [P D]. rewrite (V _ D) in E.
    assert (Z0 : sqrt (IZR d) = 0).
    { destruct (Req_dec (sqrt (IZR d)) 0) as [Z0|NZ]; [ exact Z0 |]. pose proof (sqrt_pos (IZR d)). pose proof (exp_one_pos (sqrt (IZR d) / 10) ltac:(lra)). unfold Rmin in E. destruct (Rle_dec _ _); lra. }
    destruct D as [(y & x & J & T & E2) _]. rewrite Z0 in E2. symmetry in E2. apply distance_zero in E2. now destruct E2 as [-> ->].
  - intro T. assert (D : distance_to rows cols (fun y x => test y x = true) r c 0).
    { split; [ exists r, c; split; [ exact I |]; split; [ exact T |]; symmetry; now apply distance_zero |]. intros. apply sqrt_pos. }
    rewrite (V _ D). replace (0 / 10) with 0 by field. rewrite exp_0, Rminus_diag_eq by reflexivity. apply Rmin_left. lra.
Qed.

(* --- colours --- *)
Definition least : R := / 10000000000.
Lemma capped_range d : least <= capped d <= 1.
Proof. unfold capped, least. split; [ apply Rmin_glb; [ apply Rmax_r | lra ] | apply Rmin_r ]. Qed.
Lemma capped_mono d e : d <= e -> capped d <= capped e.
Proof. intro H. unfold capped. apply Rle_min_compat_r. apply Rle_max_compat_r. exact H. Qed.
Lemma blur_mono n m f g r c : (forall y x, f y x <= g y x) -> blur n m f r c <= blur n m g r c.
Proof.
  intro H. unfold blur. cbv zeta.
  pose proof (H (reflect n (r - 1)) (reflect m (c - 1))%Z). pose proof (H (reflect n (r - 1)) c). pose proof (H (reflect n (r - 1)) (reflect m (c + 1))).
  pose proof (H r (reflect m (c - 1))). pose proof (H r c). pose proof (H r (reflect m (c + 1))).
  pose proof (H (reflect n (r + 1)) (reflect m (c - 1))). pose proof (H (reflect n (r + 1)) c). pose proof (H (reflect n (r + 1)) (reflect m (c + 1))). lra.
Qed.
Lemma blur_const n m v r c : blur n m (fun _ _ => v) r c = v.
Proof. unfold blur. cbv zeta. field. Qed.
Lemma blur_range n m d r c : least <= blur n m (fun y x => capped (d y x)) r c <= 1.
Proof.
  split.
  - rewrite <- (blur_const n m least r c) at 1. apply blur_mono. intros. apply capped_range.
  - rewrite <- (blur_const n m 1 r c). apply blur_mono. intros. apply capped_range.
Qed.
Lemma ln2_pos : 0 < ln 2.
Proof. rewrite <- ln_1. apply ln_increasing; lra. Qed.
Lemma ln_power x n : 0 < x -> ln (x ^ n) = INR n * ln x.
Proof. intro P. rewrite <- Rpower_pow by exact P. unfold Rpower. apply ln_exp. Qed.
Lemma inr_of n z : Z.of_nat n = z -> INR n = IZR z.
Proof. intros <-. apply INR_IZR_INZ. Qed.
Lemma least_log : 996 <= - (ln least) / ln 2 * 30 < 997.
Proof.
  pose proof ln2_pos as L. assert (E : - ln least = ln (10 ^ 10)) by (unfold least; rewrite ln_Rinv by lra; rewrite Ropp_involutive; f_equal; lra).
  assert (X : 30 * ln (10 ^ 10) = ln (10 ^ 300)) by (rewrite !ln_power by lra; rewrite (inr_of 10 10), (inr_of 300 300) by reflexivity; lra).
  assert (B : 2 ^ 996 < 10 ^ 300 < 2 ^ 997).
  { rewrite !pow_IZR. split; apply IZR_lt; vm_compute; reflexivity. }
  assert (P2 : forall n, 0 < 2 ^ n) by (intro n; apply pow_lt; lra). assert (P10 : 0 < 10 ^ 300) by (apply pow_lt; lra).
  assert (I1 : ln (2 ^ 996) < ln (10 ^ 300)) by (apply ln_increasing; [ apply P2 | lra ]). assert (I2 : ln (10 ^ 300) < ln (2 ^ 997)) by (apply ln_increasing; [ exact P10 | lra ]).
  rewrite (ln_power 2 996) in I1 by lra. rewrite (ln_power 2 997) in I2 by lra. rewrite (inr_of 996 996) in I1 by reflexivity. rewrite (inr_of 997 997) in I2 by reflexivity. rewrite <- X, <- E in I1, I2.
  replace (- ln least / ln 2 * 30) with ((30 * - ln least) / ln 2) by (field; lra). split.
  - apply Rmult_le_reg_r with (ln 2); [ exact L |]. unfold Rdiv. rewrite Rmult_assoc, Rinv_l, Rmult_1_r by lra. lra.
  - apply Rmult_lt_reg_r with (ln 2); [ exact L |]. unfold Rdiv. rewrite Rmult_assoc, Rinv_l, Rmult_1_r by lra. lra.
Qed.
Definition color_raw (b : R) : R := ln b * (- 1 / ln 2) * 30.
Lemma color_raw_eq b : color_raw b = - ln b / ln 2 * 30.
Proof. unfold color_raw. field. pose proof ln2_pos. lra. Qed.
Lemma color_raw_mono a b : least <= a -> a <= b -> color_raw b <= color_raw a.
Proof.
  intros A B. rewrite !color_raw_eq. pose proof ln2_pos as L. assert (LP : 0 < least) by (unfold least; lra). assert (H : ln a <= ln b) by (destruct B as [B| ->]; [ apply Rlt_le, ln_increasing; lra | lra ]).
  apply Rmult_le_compat_r; [ lra |]. unfold Rdiv. apply Rmult_le_compat_r; [ apply Rlt_le, Rinv_0_lt_compat; exact L | lra ].
Qed.
Lemma color_raw_range b : least <= b <= 1 -> 0 <= color_raw b < 997.
Proof.
  intros [A B]. split.
  - replace 0 with (color_raw 1) by (unfold color_raw; rewrite ln_1; lra). now apply color_raw_mono.
  - apply Rle_lt_trans with (color_raw least); [ apply color_raw_mono; [ lra | exact A ] | rewrite color_raw_eq; apply least_log ].
Qed.
Lemma color_range n m d r c : (0 <= color_cost n m d r c <= 996)%Z.
Proof.
  unfold color_cost. pose proof (color_raw_range _ (blur_range n m d r c)) as H. unfold color_raw in H. split; [ apply cast_spec; lra | apply cast_upto; lra ].
Qed.
Lemma color_mono n m d e r c : (forall y x, d y x <= e y x) -> (color_cost n m e r c <= color_cost n m d r c)%Z.
Proof.
  intro H. unfold color_cost. assert (B : blur n m (fun y x => capped (d y x)) r c <= blur n m (fun y x => capped (e y x)) r c) by (apply blur_mono; intros; now apply capped_mono).
  pose proof (color_raw_range _ (blur_range n m e r c)) as R1. pose proof (color_raw_mono _ _ (proj1 (blur_range n m d r c)) B) as R2. unfold color_raw in R1, R2. apply cast_mono. lra.
Qed.
Lemma color_low n m d r c : (forall y x, d y x <= least) -> color_cost n m d r c = 996%Z.
Proof.
  intro H. unfold color_cost. assert (E : blur n m (fun y x => capped (d y x)) r c = least).
  { apply Rle_antisym; [| apply blur_range ]. rewrite <- (blur_const n m least r c) at 1. apply blur_mono. intros y x. apply Rle_trans with (capped least); [ apply capped_mono, H |]. unfold capped. fold least. rewrite Rmax_left by lra. apply Rmin_l. }
  rewrite E. apply cast_between; [| lia ]. pose proof least_log as L. rewrite <- color_raw_eq in L. unfold color_raw in L. lra.
Qed.
Lemma color_high n m d r c : (forall y x, 1 <= d y x) -> color_cost n m d r c = 0%Z.
Proof.
  intro H. unfold color_cost. assert (E : blur n m (fun y x => capped (d y x)) r c = 1).
  { apply Rle_antisym; [ apply blur_range |]. rewrite <- (blur_const n m 1 r c) at 1. apply blur_mono. intros y x. apply Rle_trans with (capped 1); [| apply capped_mono, H ]. unfold capped. apply Rmin_glb; [ apply Rmax_l | lra ]. }
  rewrite E, ln_1, !Rmult_0_l. apply cast_between; [ lra | lia ].
Qed.

(* --- gradients --- *)
Lemma factor_nonneg g : 0 <= grad_factor g.
Proof. unfold grad_factor. apply Rmax_r. Qed.
Lemma factor_mono g h : (g <= h)%Z -> grad_factor h <= grad_factor g.
Proof.
  intro H. unfold grad_factor. apply Rle_max_compat_r. apply Rplus_le_compat_r. apply IZR_le in H. rewrite !minus_IZR. destruct (Req_dec (IZR g) (IZR h)) as [->|N]; [ lra |]. apply Rlt_le, exp_increasing. lra.
Qed.
Lemma exp_power x n : exp x ^ n = exp (INR n * x).
Proof. induction n as [|n IH]; [ cbn; now rewrite Rmult_0_l, exp_0 |]. rewrite S_INR. cbn [pow]. rewrite IH, <- exp_plus. f_equal. ring. Qed.
Lemma factor_51 : grad_factor 51 = 0.
Proof.
  unfold grad_factor. apply Rmax_right. assert (H : exp (IZR (30 - 51) / 30) <= / 2); [| lra ].
  replace (IZR (30 - 51) / 30) with (- (7 / 10)) by (cbn; lra). rewrite exp_Ropp. apply Rinv_le_contravar; [ lra |].
  replace (7 / 10) with (INR 64 * (7 / 640)) by (rewrite (inr_of 64 64) by reflexivity; lra). rewrite <- exp_power. apply Rle_trans with ((1 + 7 / 640) ^ 64).
  - replace (1 + 7 / 640) with (647 / 640) by lra. unfold Rdiv. rewrite Rpow_mult_distr, pow_inv, !pow_IZR. apply Rmult_le_reg_r with (IZR (640 ^ Z.of_nat 64)); [ apply IZR_lt; vm_compute; reflexivity |].
    rewrite Rmult_assoc, Rinv_l, Rmult_1_r, <- mult_IZR by (apply not_0_IZR; vm_compute; discriminate). apply IZR_le. vm_compute. discriminate.
  - apply pow_incr. split; [ lra |]. apply Rlt_le, exp_ineq1. lra.
Qed.
Lemma frac_le a b : 0 < b -> 101 * b <= 200 * a -> 101 * / 200 <= a * / b.
Proof.
  intros B H. apply Rmult_le_reg_r with (b * 200); [ lra |]. replace (a * / b * (b * 200)) with (200 * a) by (field; lra). replace (101 * / 200 * (b * 200)) with (101 * b) by field. exact H.
Qed.
Lemma factor_50 : / 200 <= grad_factor 50.
Proof.
  unfold grad_factor. apply Rle_trans with (exp (IZR (30 - 50) / 30) - / 2); [| apply Rmax_l ]. assert (H : 101 / 200 <= exp (IZR (30 - 50) / 30)); [| lra ].
  replace (IZR (30 - 50) / 30) with (INR 64 * (- (1 / 96))) by (rewrite (inr_of 64 64) by reflexivity; cbn; lra). rewrite <- exp_power. apply Rle_trans with ((1 + - (1 / 96)) ^ 64).
  - replace (1 + - (1 / 96)) with (95 / 96) by lra. unfold Rdiv. rewrite Rpow_mult_distr, pow_inv, !pow_IZR. apply frac_le; [ apply IZR_lt; vm_compute; reflexivity | rewrite <- !mult_IZR; apply IZR_le; vm_compute; discriminate ].
  - apply pow_incr. split; [ lra |]. apply Rlt_le, exp_ineq1. lra.
Qed.
Lemma factor_zero g : grad_factor g * 200 < 1 <-> (51 <= g)%Z.
Proof.
  split; intro H.
  - destruct (Z.le_gt_cases 51 g) as [L|L]; [ exact L |]. exfalso. pose proof (factor_mono g 50 ltac:(lia)). pose proof factor_50. lra.
  - pose proof (factor_mono 51 g H). rewrite factor_51 in H0. lra.
Qed.
Lemma factor_500 g : (0 <= g)%Z -> grad_factor g * 200 <= 500.
Proof.
  intro H. pose proof (factor_mono 0 g H) as M. assert (E : grad_factor 0 <= 5 / 2); [| lra ]. unfold grad_factor. replace (IZR (30 - 0) / 30) with 1 by (cbn; lra). pose proof exp_le_3. apply Rmax_lub; lra.
Qed.

(* --- partners --- *)
Lemma partner_spec v layer cam r c x : partner v layer cam r c = Some x <->
  (disp v layer cam r c < nreal v)%Z /\ (if (cam =? 0)%Z then c - x else x - c)%Z = (mind v + disp v layer cam r c)%Z /\ (0 <= x < ncols v)%Z /\ roi v (1 - cam)%Z r x = true.
Proof.
  unfold partner. cbv zeta. destruct (Z.ltb_spec (disp v layer cam r c) (nreal v)) as [L|L]; [| split; [ discriminate | lia ] ].
  set (y := if (cam =? 0)%Z then (c - (mind v + disp v layer cam r c))%Z else (c + (mind v + disp v layer cam r c))%Z).
  assert (Y : forall z, (if (cam =? 0)%Z then c - z else z - c)%Z = (mind v + disp v layer cam r c)%Z <-> z = y) by (intro z; unfold y; destruct (cam =? 0)%Z; lia). rewrite Y.
  destruct ((0 <=? y)%Z && (y <? ncols v)%Z && roi v (1 - cam)%Z r y) eqn:B.
  - rewrite !andb_true_iff, Z.leb_le, Z.ltb_lt in B. split; [ intro X; injection X as <-; tauto | intros (_ & -> & _); reflexivity ].
  - split; [ discriminate |]. intros (_ & -> & I & J). rewrite J, (proj2 (Z.leb_le 0 y)), (proj2 (Z.ltb_lt y (ncols v))) in B by lia. discriminate.
Qed.
Lemma partner_back v layer cam r c x : (cam = 0 \/ cam = 1)%Z -> partner v layer cam r c = Some x -> disp v layer (1 - cam)%Z r x = disp v layer cam r c -> (0 <= c < ncols v)%Z -> roi v cam r c = true ->
  partner v layer (1 - cam)%Z r x = Some c.
Proof. intros C P D I J. apply partner_spec in P. apply partner_spec. rewrite D. destruct C as [-> | ->]; cbn [Z.eqb] in *; change (1 - 0)%Z with 1%Z in *; change (1 - 1)%Z with 0%Z in *; cbn [Z.eqb] in *; repeat split; try tauto; lia. Qed.

(* --- costs of labels --- *)
Lemma dist_cost d : 0 <= d <= 10 -> (0 <= cost_cast (d * dist_scale) <= 2000)%Z.
Proof. intro H. unfold dist_scale. split; [ apply cast_spec; lra | apply cast_upto; lra ]. Qed.
Lemma inter_cost d : 0 <= d <= 10 -> (0 <= cost_cast (d * dist_scale * inter_scale) <= 1000)%Z.
Proof. intro H. unfold dist_scale, inter_scale. split; [ apply cast_spec; lra | apply cast_upto; lra ]. Qed.
Lemma label_range v layer cam r c : (0 <= fg_cost v layer cam r c <= 3996)%Z /\ (0 <= bg_cost v layer cam r c <= 3996)%Z.
Proof.
  unfold fg_cost, bg_cost, fg_dist, bg_dist. destruct (partner v layer cam r c) as [x|]; [| lia ].
  pose proof (dist_cost _ (shape_near (nrows v) (ncols v) (mask v layer cam) r c)). pose proof (dist_cost _ (shape_near (nrows v) (ncols v) (fun y x => negb (mask v layer cam y x)) r c)).
  pose proof (inter_cost _ (shape_near (nrows v) (ncols v) (mask v layer (1 - cam)%Z) r x)). pose proof (inter_cost _ (shape_near (nrows v) (ncols v) (fun y x => negb (mask v layer (1 - cam)%Z y x)) r x)).
  pose proof (color_range (2 * nrows v) (ncols v) (dens_fg v cam) (layer * nrows v + r) c). pose proof (color_range (2 * nrows v) (ncols v) (dens_bg v cam) (layer * nrows v + r) c). lia.
Qed.
(* where the masks of both cameras agree with each other, the costs of the shapes count for one label only *)
Lemma label_agreed v layer cam r c x : in_image (nrows v) (ncols v) r c -> partner v layer cam r c = Some x -> mask v layer cam r c = mask v layer (1 - cam)%Z r x ->
  (mask v layer cam r c = true -> fg_cost v layer cam r c = color_cost (2 * nrows v) (ncols v) (dens_fg v cam) (layer * nrows v + r) c) /\
  (mask v layer cam r c = false -> bg_cost v layer cam r c = color_cost (2 * nrows v) (ncols v) (dens_bg v cam) (layer * nrows v + r) c).
Proof.
  intros I P M. assert (J : in_image (nrows v) (ncols v) r x) by (apply partner_spec in P; unfold in_image in *; lia). unfold fg_cost, bg_cost, fg_dist, bg_dist. rewrite P.
  assert (Z0 : forall k, cost_cast (0 * k) = 0%Z) by (intro k; rewrite Rmult_0_l; apply cast_between; [ lra | lia ]). split; intro T.
  - rewrite (proj2 (shape_zero _ _ _ _ _ I) T). rewrite M in T. rewrite (proj2 (shape_zero _ _ _ _ _ J) T). rewrite !Rmult_0_l. rewrite <- (Rmult_0_l 0) at 1 2. rewrite Z0. lia.
  - assert (T1 : negb (mask v layer cam r c) = true) by now rewrite T. assert (T2 : negb (mask v layer (1 - cam)%Z r x) = true) by now rewrite <- M, T.
    rewrite (proj2 (shape_zero _ _ (fun y x => negb (mask v layer cam y x)) _ _ I) T1), (proj2 (shape_zero _ _ (fun y x => negb (mask v layer (1 - cam)%Z y x)) _ _ J) T2).
    rewrite !Rmult_0_l. rewrite <- (Rmult_0_l 0) at 1 2. rewrite Z0. lia.
Qed.

(* --- costs of pairs --- *)
Definition pair_factor (v : inputs) (layer cam : Z) (h : bool) (r c : Z) : R :=
  match partner v layer cam r c with
  | Some x => Rmin (grad_factor (grad v layer cam h r c)) (grad_factor (grad v layer (1 - cam)%Z h r x) / inter_scale)
  | None => grad_factor (grad v layer cam h r c)
  end.
Lemma pair_factor_range v layer cam h r c : 0 <= pair_factor v layer cam h r c <= grad_factor (grad v layer cam h r c).
Proof.
  unfold pair_factor. pose proof (factor_nonneg (grad v layer cam h r c)). destruct (partner v layer cam r c) as [x|]; [| lra ]. split; [| apply Rmin_l ]. apply Rmin_glb; [ assumption |].
  unfold inter_scale. pose proof (factor_nonneg (grad v layer (1 - cam)%Z h r x)). lra.
Qed.
Lemma pair_range v layer cam h r c : (0 <= grad v layer cam h r c)%Z -> (0 <= pair_weight v layer cam h r c <= 500)%Z.
Proof.
  intro G. change (pair_weight v layer cam h r c) with (cost_cast (pair_factor v layer cam h r c * 200)). pose proof (pair_factor_range v layer cam h r c). pose proof (factor_500 _ G). split; [ apply cast_spec; lra | apply cast_upto; lra ].
Qed.
Lemma pair_nonneg v layer cam h r c : (0 <= pair_weight v layer cam h r c)%Z.
Proof. change (pair_weight v layer cam h r c) with (cost_cast (pair_factor v layer cam h r c * 200)). pose proof (pair_factor_range v layer cam h r c). apply cast_spec. lra. Qed.
Lemma cast_zero x : 0 <= x -> cost_cast x = 0%Z <-> x < 1.
Proof.
  intro H. split; [| intro L; apply cast_between; [ lra | lia ] ]. intro E. destruct (cast_spec x H) as [A _]. rewrite E in A. lra.
Qed.
Lemma pair_free v layer cam h r c : pair_weight v layer cam h r c = 0%Z <->
  (51 <= grad v layer cam h r c)%Z \/ exists x, partner v layer cam r c = Some x /\ (51 <= grad v layer (1 - cam)%Z h r x)%Z.
Proof.
  change (pair_weight v layer cam h r c) with (cost_cast (pair_factor v layer cam h r c * 200)). rewrite cast_zero by (pose proof (pair_factor_range v layer cam h r c); lra).
  unfold pair_factor. rewrite <- (factor_zero (grad v layer cam h r c)). destruct (partner v layer cam r c) as [x|].
  - set (f := grad_factor (grad v layer cam h r c)). set (g := grad_factor (grad v layer (1 - cam)%Z h r x)). assert (G : g * 200 < 1 <-> (51 <= grad v layer (1 - cam)%Z h r x)%Z) by apply factor_zero. split.
    + intro H. destruct (Rle_dec f (g / inter_scale)) as [E|E]; [ rewrite Rmin_left in H by exact E; now left | rewrite Rmin_right in H by lra ]. right. exists x. split; [ reflexivity |]. apply G. unfold inter_scale in H. pose proof (factor_nonneg (grad v layer (1 - cam)%Z h r x)). fold g in H0. lra.
    + intros [H|(y & E & H)].
      * pose proof (Rmin_l f (g / inter_scale)). lra.
      * injection E as <-. pose proof (Rmin_r f (g / inter_scale)) as L. assert (Gz : g = 0); [| rewrite Gz in L; unfold Rdiv in L; rewrite Rmult_0_l in L; rewrite Gz; unfold Rdiv; rewrite Rmult_0_l; lra ].
        unfold g. pose proof (factor_mono 51 _ H). rewrite factor_51 in H0. pose proof (factor_nonneg (grad v layer (1 - cam)%Z h r x)). lra.
  - split; [ auto | intros [H|(y & E & _)]; [ exact H | discriminate ] ].
Qed.
Lemma pair_mono v w layer cam h r c : partner v layer cam r c = None -> partner w layer cam r c = None -> (grad v layer cam h r c <= grad w layer cam h r c)%Z -> (pair_weight w layer cam h r c <= pair_weight v layer cam h r c)%Z.
Proof.
  intros P Q H. unfold pair_weight. cbv zeta. rewrite P, Q. pose proof (factor_mono _ _ H). pose proof (factor_nonneg (grad w layer cam h r c)). apply cast_mono. lra.
Qed.
Lemma temporal_nonneg v cam r c : (0 <= temporal_weight v cam r c)%Z.
Proof. unfold temporal_weight. pose proof (factor_nonneg (tdiff v cam r c)). apply cast_spec. lra. Qed.
Lemma temporal_free v cam r c : temporal_weight v cam r c = 0%Z <-> (51 <= tdiff v cam r c)%Z.
Proof. unfold temporal_weight. pose proof (factor_nonneg (tdiff v cam r c)). rewrite cast_zero by lra. apply factor_zero. Qed.
Lemma scene_sound v motion frames : (0 < nrows v)%Z -> (0 < ncols v)%Z -> sound_scene (scene_of v motion frames).
Proof. intros R C. split; [ exact R |]. split; [ exact C |]. intro i. cbn. split; [ apply pair_nonneg |]. split; [ apply pair_nonneg | apply temporal_nonneg ]. Qed.

(* --- both layers in one blurred image --- *)
Definition with_dens (v : inputs) (d : Z -> Z -> Z -> R) : inputs :=
  Inputs (nrows v) (ncols v) (nreal v) (mind v) (roi v) (mask v) d (dens_bg v) (grad v) (tdiff v) (disp v).
Definition flat : inputs := Inputs 1 1 1 0 (fun _ _ _ => true) (fun _ _ _ _ => true) (fun _ _ _ => 1) (fun _ _ _ => 1) (fun _ _ _ _ _ => 0%Z) (fun _ _ _ => 0%Z) (fun _ _ _ _ => 0%Z).
Lemma flat_cost d : fg_cost (with_dens flat d) 0 0 0 0 = color_cost 2 1 (d 0%Z) 0 0.
Proof.
  destruct (label_agreed (with_dens flat d) 0 0 0 0 0) as [H _].
  - cbn. unfold in_image. lia.
  - reflexivity.
  - reflexivity.
  - rewrite H by reflexivity. reflexivity.
Qed.
Lemma layers_mixed : exists v d, (forall cam r c, (r < nrows v)%Z -> d cam r c = dens_fg v cam r c) /\ (exists layer cam r c, layer = 0%Z /\ in_image (nrows v) (ncols v) r c /\ fg_cost (with_dens v d) layer cam r c <> fg_cost v layer cam r c).
Proof.
  set (d := fun (_ r _ : Z) => if (r <? 1)%Z then 1 else 0). exists flat, d. split.
  - intros cam r c H. cbn in H. unfold d. cbn [flat dens_fg]. now rewrite (proj2 (Z.ltb_lt r 1) H).
  - exists 0%Z, 0%Z, 0%Z, 0%Z. split; [ reflexivity |]. split; [ cbn; unfold in_image; lia |]. rewrite flat_cost. change flat with (with_dens flat (dens_fg flat)) at 1. rewrite flat_cost. cbn [flat dens_fg]. rewrite (color_high 2 1 (fun _ _ => 1)) by (intros; lra).
    unfold color_cost. set (b := blur 2 1 (fun y x => capped (d 0%Z y x)) 0 0). assert (B : b = / 2 * capped 1 + / 2 * capped 0).
    { unfold b, blur, d. cbv zeta. cbn [reflect Z.sub Z.add Z.opp Z.eqb Z.ltb Z.leb Z.compare Pos.compare Pos.compare_cont Pos.eqb Z.mul Pos.mul Pos.add Z.pos_sub Pos.pred_double]. field. }
    assert (C1 : capped 1 = 1) by (unfold capped; rewrite Rmax_left by lra; apply Rmin_left; lra). assert (C0 : capped 0 = least) by (unfold capped, least; rewrite Rmax_right by lra; apply Rmin_left; lra). rewrite C1, C0 in B.
    intro E. assert (R : least <= b <= 1) by apply (blur_range 2 1 (d 0%Z) 0 0). pose proof (color_raw_range b R) as RR. fold (color_raw b) in E. apply cast_zero in E; [| lra ].
    rewrite color_raw_eq in E. pose proof ln2_pos as L. assert (LP : 0 < least) by (unfold least; lra). assert (Q : ln (b ^ 2) < ln (/ 2)) by (apply ln_increasing; [ apply pow_lt; lra | unfold least in *; nra ]). rewrite ln_power, ln_Rinv in Q by lra. rewrite (inr_of 2 2) in Q by reflexivity.
    assert (X : ln 2 * 15 < - ln b * 30) by lra. assert (Y : 15 < - ln b / ln 2 * 30); [| lra ]. apply Rmult_lt_reg_r with (ln 2); [ exact L |]. replace (- ln b / ln 2 * 30 * ln 2) with (- ln b * 30) by (field; lra). lra.
Qed.

(* --- what labels cost where the masks have pixels --- *)
Lemma cast_floor x : 0 <= x -> cost_cast x = Int_part x.
Proof. intro H. unfold cost_cast. destruct (Rle_dec 0 x); [ reflexivity | lra ]. Qed.
Definition shape_term (d : R) : R := Rmin (exp (d / 10) - 1) 10.
Lemma matched_fg v layer cam r c x d e : partner v layer cam r c = Some x ->
  distance_to (nrows v) (ncols v) (fun y z => mask v layer cam y z = true) r c d -> distance_to (nrows v) (ncols v) (fun y z => mask v layer (1 - cam) y z = true) r x e ->
  fg_cost v layer cam r c = (Int_part (200 * shape_term d) + color_cost (2 * nrows v) (ncols v) (dens_fg v cam) (layer * nrows v + r) c + Int_part (100 * shape_term e))%Z.
Proof.
  intros P D E. unfold fg_cost, fg_dist. rewrite P. pose proof (shape_near (nrows v) (ncols v) (mask v layer cam) r c) as R1. pose proof (shape_near (nrows v) (ncols v) (mask v layer (1 - cam)%Z) r x) as R2.
  rewrite (proj1 (shape_value _ _ (mask v layer cam) _ _) d D) in *. rewrite (proj1 (shape_value _ _ (mask v layer (1 - cam)%Z) _ _) e E) in *. fold (shape_term d) in *. fold (shape_term e) in *. unfold dist_scale, inter_scale.
  rewrite !cast_floor by lra. replace (shape_term d * 200) with (200 * shape_term d) by ring. replace (shape_term e * 200 * / 2) with (100 * shape_term e) by field. reflexivity.
Qed.
Lemma negb_iff (b : bool) : negb b = true <-> b = false.
Proof. destruct b; split; intro; try reflexivity; discriminate. Qed.
Lemma matched_bg v layer cam r c x d e : partner v layer cam r c = Some x ->
  distance_to (nrows v) (ncols v) (fun y z => mask v layer cam y z = false) r c d -> distance_to (nrows v) (ncols v) (fun y z => mask v layer (1 - cam) y z = false) r x e ->
  bg_cost v layer cam r c = (Int_part (200 * shape_term d) + color_cost (2 * nrows v) (ncols v) (dens_bg v cam) (layer * nrows v + r) c + Int_part (100 * shape_term e))%Z.
Proof.
  assert (T : forall (f : Z -> Z -> bool) r c d, distance_to (nrows v) (ncols v) (fun y z => f y z = false) r c d -> distance_to (nrows v) (ncols v) (fun y z => negb (f y z) = true) r c d).
  { intros f r' c' d' [(y & z & I & F & E) M]. split; [ exists y, z; rewrite negb_iff; auto |]. intros y' z' I' F'. apply M; [ exact I' | now apply negb_iff ]. }
  intros P D E. apply T in D, E. unfold bg_cost, bg_dist. rewrite P. pose proof (shape_near (nrows v) (ncols v) (fun y z => negb (mask v layer cam y z)) r c) as R1. pose proof (shape_near (nrows v) (ncols v) (fun y z => negb (mask v layer (1 - cam)%Z y z)) r x) as R2.
  rewrite (proj1 (shape_value _ _ (fun y z => negb (mask v layer cam y z)) _ _) d D) in *. rewrite (proj1 (shape_value _ _ (fun y z => negb (mask v layer (1 - cam)%Z y z)) _ _) e E) in *. fold (shape_term d) in *. fold (shape_term e) in *. unfold dist_scale, inter_scale.
  rewrite !cast_floor by lra. replace (shape_term d * 200) with (200 * shape_term d) by ring. replace (shape_term e * 200 * / 2) with (100 * shape_term e) by field. reflexivity.
Qed.
Lemma unmatched v layer cam r c : partner v layer cam r c = None -> fg_cost v layer cam r c = 100%Z /\ bg_cost v layer cam r c = 0%Z.
Proof. intro P. unfold fg_cost, bg_cost. now rewrite P. Qed.
Lemma cast_int n : (0 <= n)%Z -> cost_cast (IZR n) = n.
Proof. intro H. apply cast_between; [ lra | exact H ]. Qed.
Lemma flat_costs : fg_cost flat 0 0 0 0 = 0%Z /\ bg_cost flat 0 0 0 0 = 3000%Z.
Proof.
  split.
  - change flat with (with_dens flat (dens_fg flat)). rewrite flat_cost. apply color_high. intros. cbn. lra.
  - unfold bg_cost. replace (partner flat 0 0 0 0) with (Some 0%Z) by reflexivity. rewrite color_high by (intros; cbn; lra). unfold bg_dist.
    change (nearest (nrows flat) (ncols flat) (fun y x => negb (mask flat 0 0 y x)) 0 0) with (@None Z). change (nearest (nrows flat) (ncols flat) (fun y x => negb (mask flat 0 (1 - 0) y x)) 0 0) with (@None Z).
    unfold shape_dist, px_max, dist_scale, inter_scale. replace (10 * 200) with (IZR 2000) by (cbn; lra). replace (IZR 2000 * / 2) with (IZR 1000) by (cbn; lra). rewrite !cast_int by lia. reflexivity.
Qed.
Lemma lost_without_partner : exists v disp' r c, in_image (nrows v) (ncols v) r c /\ mask v 0 0 r c = true /\ (fg_cost v 0 0 r c < bg_cost v 0 0 r c)%Z /\
  (let w := Inputs (nrows v) (ncols v) (nreal v) (mind v) (roi v) (mask v) (dens_fg v) (dens_bg v) (grad v) (tdiff v) disp' in (bg_cost w 0 0 r c < fg_cost w 0 0 r c)%Z).
Proof.
  exists flat, (fun _ _ _ _ => 1%Z), 0%Z, 0%Z. split; [ cbn; unfold in_image; lia |]. split; [ reflexivity |]. destruct flat_costs as [-> ->]. split; [ lia |]. cbv zeta.
  match goal with |- (bg_cost ?w _ _ _ _ < _)%Z => destruct (unmatched w 0 0 0 0) as [-> ->]; [ reflexivity | lia ] end.
Qed.
