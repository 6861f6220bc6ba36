From Coq Require Import ZArith Reals Bool Lra Lia.
From Verif Require Import Model.Ptz Spec.Ptz.
Open Scope R_scope.

Lemma ltb_spec x y : ltb x y = true <-> x < y. Proof. unfold ltb. destruct (Rlt_dec x y); split; easy. Qed.
Lemma leb_spec x y : leb x y = true <-> x <= y. Proof. unfold leb. destruct (Rle_dec x y); split; easy. Qed.
Lemma ltb_false x y : ltb x y = false <-> y <= x. Proof. unfold ltb. destruct (Rlt_dec x y); split; try easy; lra. Qed.
Lemma leb_false x y : leb x y = false <-> y < x. Proof. unfold leb. destruct (Rle_dec x y); split; try easy; lra. Qed.

(** angles *)
Lemma d2r_deg d : d2r d = deg d. Proof. unfold d2r, deg. field. Qed.
Lemma d2r_r2d r : d2r (r2d r) = r. Proof. unfold d2r, r2d. field. pose proof PI_RGT_0. lra. Qed.
Lemma cos2_sin2 a : cos a * cos a + sin a * sin a = 1.
Proof. pose proof (sin2_cos2 a). unfold Rsqr in *. lra. Qed.
Lemma hyp_pos y x : x <> 0 -> 0 < sqrt (x * x + y * y).
Proof. intro H. apply sqrt_lt_R0. assert (0 < x * x) by (destruct (Rtotal_order x 0) as [|[|]]; nra). nra. Qed.
Lemma atan_polar y x : 0 < x -> sqrt (x * x + y * y) * cos (atan (y / x)) = x /\ sqrt (x * x + y * y) * sin (atan (y / x)) = y.
Proof.
  intro X. assert (S : sqrt (1 + (y / x)²) = sqrt (x * x + y * y) / x).
  { apply sqrt_lem_1; [ pose proof (Rle_0_sqr (y / x)); lra | apply Rlt_le, Rdiv_lt_0_compat; [ apply hyp_pos; lra | exact X ] |].
    unfold Rdiv at 1. replace (sqrt (x * x + y * y) * / x * (sqrt (x * x + y * y) / x)) with (sqrt (x * x + y * y) * sqrt (x * x + y * y) / (x * x)) by (field; lra).
    rewrite sqrt_sqrt by nra. unfold Rsqr. field. lra. }
  pose proof (hyp_pos y x ltac:(lra)) as P. rewrite cos_atan, sin_atan, S. split; field; lra.
Qed.
Lemma atan2_polar y x : sqrt (x * x + y * y) * cos (atan2 y x) = x /\ sqrt (x * x + y * y) * sin (atan2 y x) = y.
Proof.
  unfold atan2. destruct (ltb 0 x) eqn:A; [ apply ltb_spec in A; now apply atan_polar |]. apply ltb_false in A. destruct (ltb x 0) eqn:B.
  - apply ltb_spec in B. assert (E : y / x = - y / - x) by (field; lra). destruct (atan_polar (- y) (- x) ltac:(lra)) as (C & S). rewrite <- E in C, S.
    replace (- x * - x + - y * - y) with (x * x + y * y) in C, S by ring. destruct (leb 0 y).
    + rewrite neg_cos, neg_sin. lra.
    + replace (atan (y / x) - PI) with (- (PI - atan (y / x))) by ring. rewrite cos_neg, sin_neg. replace (PI - atan (y / x)) with (- atan (y / x) + PI) by ring. rewrite neg_cos, neg_sin, cos_neg, sin_neg. lra.
  - apply ltb_false in B. assert (x = 0) by lra. subst x. replace (0 * 0 + y * y) with (y * y) by ring. destruct (ltb 0 y) eqn:C.
    + apply ltb_spec in C. rewrite sqrt_square by lra. rewrite cos_PI2, sin_PI2. lra.
    + apply ltb_false in C. destruct (ltb y 0) eqn:D.
      * apply ltb_spec in D. replace (y * y) with (- y * - y) by ring. rewrite sqrt_square by lra. rewrite cos_neg, sin_neg, cos_PI2, sin_PI2. lra.
      * apply ltb_false in D. assert (y = 0) by lra. subst y. replace (0 * 0) with 0 by ring. rewrite sqrt_0. lra.
Qed.
Lemma atan2_range y x : - PI < atan2 y x <= PI.
Proof.
  pose proof PI_RGT_0 as P. pose proof (atan_bound (y / x)) as B. unfold atan2. destruct (ltb 0 x); [ lra |]. destruct (ltb x 0) eqn:X.
  - apply ltb_spec in X. destruct (leb 0 y) eqn:Y.
    + split; [ lra |]. apply leb_spec in Y. assert (Q : atan (y / x) <= 0); [| lra ]. rewrite <- atan_0. assert (y / x <= 0).
      { unfold Rdiv. assert (/ x < 0) by now apply Rinv_lt_0_compat. nra. }
      destruct (Req_dec (y / x) 0) as [->|]; [ lra |]. apply Rlt_le, atan_increasing. lra.
    + apply leb_false in Y. split; [| lra ]. assert (Q : 0 < atan (y / x)); [| lra ]. rewrite <- atan_0. apply atan_increasing. unfold Rdiv. assert (/ x < 0) by now apply Rinv_lt_0_compat. nra.
  - destruct (ltb 0 y); [ lra |]. destruct (ltb y 0); lra.
Qed.
Lemma polar_direction w : 0 < dot w w -> let h := r2d (atan2 (vy w) (vx w)) in let v := r2d (acos (vz w / sqrt (vx w * vx w + vy w * vy w + vz w * vz w))) in
  - 180 < h <= 180 /\ 0 <= v <= 180 /\ vx (direction h v) = / sqrt (dot w w) * vx w /\ vy (direction h v) = / sqrt (dot w w) * vy w /\ vz (direction h v) = / sqrt (dot w w) * vz w.
Proof.
  intros N h v. assert (D : vx w * vx w + vy w * vy w + vz w * vz w = dot w w) by reflexivity. unfold h, v. rewrite D. clear h v. set (n := sqrt (dot w w)) in *.
  assert (P : 0 < n) by now apply sqrt_lt_R0. assert (Q : n * n = dot w w) by (unfold n; apply sqrt_sqrt; lra).
  set (rho := sqrt (vx w * vx w + vy w * vy w)). assert (R2 : rho * rho = vx w * vx w + vy w * vy w) by (unfold rho; apply sqrt_sqrt; nra). assert (R0 : 0 <= rho) by apply sqrt_pos.
  assert (U : -1 <= vz w / n <= 1). { assert (vz w * vz w <= n * n) by (rewrite Q, <- D; nra). split; apply Rmult_le_reg_r with n; try exact P; unfold Rdiv; rewrite Rmult_assoc, Rinv_l by lra; nra. }
  pose proof PI_RGT_0 as PP. pose proof (atan2_range (vy w) (vx w)) as A. pose proof (acos_bound (vz w / n)) as B. unfold direction. cbn [vx vy vz]. rewrite !d2r_r2d.
  split; [| split ].
  - unfold r2d. split; [ apply Rmult_lt_reg_r with (PI / 180) | apply Rmult_le_reg_r with (PI / 180) ]; try lra; replace (atan2 (vy w) (vx w) * (180 / PI) * (PI / 180)) with (atan2 (vy w) (vx w)) by (field; lra); lra.
  - unfold r2d. split; apply Rmult_le_reg_r with (PI / 180); try lra; replace (acos (vz w / n) * (180 / PI) * (PI / 180)) with (acos (vz w / n)) by (field; lra); lra.
  - destruct (atan2_polar (vy w) (vx w)) as (C & S). fold rho in C, S. rewrite (cos_acos _ U), (sin_acos _ U).
    assert (E : sqrt (1 - (vz w / n)²) = rho / n).
    { apply sqrt_lem_1; [ unfold Rsqr; nra | apply Rmult_le_pos; [ exact R0 | apply Rlt_le, Rinv_0_lt_compat; exact P ] |]. unfold Rsqr.
      replace (rho / n * (rho / n)) with (rho * rho / (n * n)) by (field; lra). replace (1 - vz w / n * (vz w / n)) with ((n * n - vz w * vz w) / (n * n)) by (field; lra). f_equal. rewrite R2, Q, <- D. ring. }
    rewrite E. split; [| split ].
    + rewrite <- C at 2. unfold Rdiv. ring.
    + rewrite <- S at 2. unfold Rdiv. ring.
    + unfold Rdiv. ring.
Qed.

(** the basis of the view *)
Lemma view_rows h v : let m := view_matrix h v in
  m00 m = sin (d2r h) /\ m01 m = - cos (d2r h) /\ m02 m = 0 /\
  m10 m = - cos (d2r v) * cos (d2r h) /\ m11 m = - cos (d2r v) * sin (d2r h) /\ m12 m = sin (d2r v) /\
  m20 m = - (sin (d2r v) * cos (d2r h)) /\ m21 m = - (sin (d2r v) * sin (d2r h)) /\ m22 m = - cos (d2r v).
Proof.
  cbv zeta. unfold view_matrix. assert (A : cos (d2r (v - 180)) = - cos (d2r v) /\ sin (d2r (v - 180)) = - sin (d2r v)).
  { replace (d2r (v - 180)) with (- (- d2r v + PI)) by (unfold d2r; field). rewrite cos_neg, sin_neg, neg_cos, neg_sin, cos_neg, sin_neg. lra. }
  assert (B : cos (d2r (90 - h)) = sin (d2r h) /\ sin (d2r (90 - h)) = cos (d2r h)).
  { replace (d2r (90 - h)) with (PI / 2 - d2r h) by (unfold d2r; field). now rewrite cos_shift, sin_shift. }
  destruct A as (A1 & A2), B as (B1 & B2). cbn [mul rotate_x rotate_z m00 m01 m02 m10 m11 m12 m20 m21 m22]. rewrite A1, A2, B1, B2. repeat split; ring.
Qed.
Lemma view_det h v : det (view_matrix h v) = 1.
Proof.
  destruct (view_rows h v) as (E1 & E2 & E3 & E4 & E5 & E6 & E7 & E8 & E9). unfold det. rewrite E1, E2, E3, E4, E5, E6, E7, E8, E9.
  pose proof (cos2_sin2 (d2r h)) as A. pose proof (cos2_sin2 (d2r v)) as B. set (c := cos (d2r h)) in *. set (s := sin (d2r h)) in *. set (e := cos (d2r v)) in *. set (f := sin (d2r v)) in *.
  replace 1 with ((c * c + s * s) * (e * e + f * f)) by (rewrite A, B; ring). ring.
Qed.
(* the inverse takes camera coordinates to the world *)
Lemma view_inv h v r : apply (inv (view_matrix h v)) r = {|
  vx := sin (d2r h) * vx r - cos (d2r v) * cos (d2r h) * vy r - sin (d2r v) * cos (d2r h) * vz r;
  vy := - cos (d2r h) * vx r - cos (d2r v) * sin (d2r h) * vy r - sin (d2r v) * sin (d2r h) * vz r;
  vz := sin (d2r v) * vy r - cos (d2r v) * vz r |}.
Proof.
  destruct (view_rows h v) as (E1 & E2 & E3 & E4 & E5 & E6 & E7 & E8 & E9). unfold inv. cbv zeta. rewrite (view_det h v), Rinv_1. unfold apply. cbn [m00 m01 m02 m10 m11 m12 m20 m21 m22]. rewrite E1, E2, E3, E4, E5, E6, E7, E8, E9.
  pose proof (cos2_sin2 (d2r h)) as A. pose proof (cos2_sin2 (d2r v)) as B. set (c := cos (d2r h)) in *. set (s := sin (d2r h)) in *. set (e := cos (d2r v)) in *. set (f := sin (d2r v)) in *. f_equal.
  - transitivity ((e * e + f * f) * (s * vx r) - e * c * vy r - f * c * vz r); [ ring | rewrite B; ring ].
  - transitivity ((e * e + f * f) * (- c * vx r) - e * s * vy r - f * s * vz r); [ ring | rewrite B; ring ].
  - transitivity ((c * c + s * s) * (f * vy r - e * vz r)); [ ring | rewrite A; ring ].
Qed.

Lemma good_view_spec c : good_view c = true <-> (1 <= width c)%Z /\ (1 <= height c)%Z /\ 0 < fov c < 180 /\ -180 < hori c <= 180 /\ 0 <= verti c <= 180.
Proof.
  unfold good_view, good_angles. rewrite !andb_true_iff, !negb_true_iff, !Z.ltb_ge, !leb_false, !ltb_false. lra || (split; intros; repeat split; tauto || lra).
Qed.
Lemma good_angles_spec h v : good_angles h v = true <-> -180 < h <= 180 /\ 0 <= v <= 180.
Proof. unfold good_angles. rewrite !andb_true_iff, !negb_true_iff, leb_false, !ltb_false. lra. Qed.
Lemma tan_half_pos f : 0 < f < 180 -> 0 < tan (d2r f / 2).
Proof. intro F. apply tan_gt_0; unfold d2r; pose proof PI_RGT_0; nra. Qed.
Definition vec_of (t : vector) : vec := {| vx := fst (fst t); vy := snd (fst t); vz := snd t |}.
Lemma direction_forward h v : direction h v = vec_of (forward h v).
Proof. unfold direction, forward, vec_of. cbn. now rewrite !d2r_deg. Qed.
Lemma apply_view h v t : apply (view_matrix h v) (vec_of t) = {| vx := inner t (right h v); vy := inner t (up h v); vz := - inner t (forward h v) |}.
Proof.
  destruct (view_rows h v) as (E1 & E2 & E3 & E4 & E5 & E6 & E7 & E8 & E9). unfold apply, vec_of, inner, right, up, forward. cbn [vx vy vz fst snd]. rewrite E1, E2, E3, E4, E5, E6, E7, E8, E9, !d2r_deg. f_equal; ring.
Qed.
Lemma basis h v : let a := forward h v in let b := right h v in let c := up h v in
  inner a a = 1 /\ inner b b = 1 /\ inner c c = 1 /\ inner a b = 0 /\ inner a c = 0 /\ inner b c = 0.
Proof.
  cbv zeta. unfold inner, right, up, forward. cbn [fst snd]. pose proof (cos2_sin2 (deg h)) as A. pose proof (cos2_sin2 (deg v)) as B.
  set (c := cos (deg h)) in *. set (s := sin (deg h)) in *. set (e := cos (deg v)) in *. set (f := sin (deg v)) in *. repeat split.
  - transitivity (f * f * (c * c + s * s) + e * e); [ ring | rewrite A; lra ].
  - lra.
  - transitivity (e * e * (c * c + s * s) + f * f); [ ring | rewrite A; lra ].
  - ring.
  - transitivity (f * e * (1 - (c * c + s * s))); [ ring | rewrite A; ring ].
  - ring.
Qed.
(* the ray through (x, y) *)
Definition ray (c : view) (x y : R) : vector := plus (scale (IZR (height c) / 2 / tan (deg (fov c) / 2)) (forward (hori c) (verti c)))
    (plus (scale (x - IZR (width c) / 2) (right (hori c) (verti c))) (scale (IZR (height c) / 2 - y) (up (hori c) (verti c)))).
Lemma inner_scale k a b : inner (scale k a) b = k * inner a b. Proof. unfold inner, scale. cbn. ring. Qed.
Lemma inner_plus a b c : inner (plus a b) c = inner a c + inner b c. Proof. unfold inner, plus. cbn. ring. Qed.
Lemma inner_sym a b : inner a b = inner b a. Proof. unfold inner. ring. Qed.
Lemma ray_inner c x y : inner (ray c x y) (forward (hori c) (verti c)) = IZR (height c) / 2 / tan (deg (fov c) / 2) /\
  inner (ray c x y) (right (hori c) (verti c)) = x - IZR (width c) / 2 /\ inner (ray c x y) (up (hori c) (verti c)) = IZR (height c) / 2 - y.
Proof.
  destruct (basis (hori c) (verti c)) as (E1 & E2 & E3 & E4 & E5 & E6). unfold ray. rewrite !inner_plus, !inner_scale.
  rewrite (inner_sym (right _ _) (forward _ _)), (inner_sym (up _ _) (forward _ _)), (inner_sym (up _ _) (right _ _)), E1, E2, E3, E4, E5, E6. repeat split; ring.
Qed.
Lemma focal_pos c : good_view c = true -> 0 < IZR (height c) / 2 / tan (deg (fov c) / 2).
Proof.
  intro G. apply good_view_spec in G. destruct G as (_ & H & F & _). rewrite <- d2r_deg. pose proof (tan_half_pos (fov c) F). apply Rdiv_lt_0_compat; [| assumption ].
  assert (1 <= IZR (height c)) by now apply IZR_le. lra.
Qed.
Lemma ray_norm c x y : good_view c = true -> 0 < inner (ray c x y) (ray c x y).
Proof.
  intro G. pose proof (focal_pos c G) as F. destruct (ray_inner c x y) as (A & B & D).
  assert (E : forall t, inner t (ray c x y) = IZR (height c) / 2 / tan (deg (fov c) / 2) * inner t (forward (hori c) (verti c)) + (x - IZR (width c) / 2) * inner t (right (hori c) (verti c)) + (IZR (height c) / 2 - y) * inner t (up (hori c) (verti c))).
  { intro t. rewrite inner_sym. unfold ray. rewrite !inner_plus, !inner_scale, !(inner_sym _ t). ring. }
  rewrite E, A, B, D. set (f := IZR (height c) / 2 / tan (deg (fov c) / 2)) in *. pose proof (Rle_0_sqr (x - IZR (width c) / 2)). pose proof (Rle_0_sqr (IZR (height c) / 2 - y)). assert (0 < f * f) by (apply Rmult_lt_0_compat; assumption). unfold Rsqr in *. lra.
Qed.
Lemma angles_of c x y : good_view c = true -> let w := vec_of (ray c x y) in let h := r2d (atan2 (vy w) (vx w)) in let v := r2d (acos (vz w / sqrt (vx w * vx w + vy w * vy w + vz w * vz w))) in
  - 180 < h <= 180 /\ 0 <= v <= 180 /\ seen_at (width c) (height c) (fov c) (hori c) (verti c) (forward h v) x y.
Proof.
  intros G w h v. pose proof (ray_norm c x y G) as N. assert (N' : 0 < dot w w) by exact N. destruct (polar_direction w N') as (H & V & X & Y & Z0). fold h in H, X, Y, Z0. fold v in V, X, Y, Z0.
  split; [ exact H |]. split; [ exact V |]. exists (/ sqrt (dot w w)). split; [ apply Rinv_0_lt_compat, sqrt_lt_R0, N' |]. fold (ray c x y).
  rewrite direction_forward in X, Y, Z0. destruct (forward h v) as ((a & b) & e). cbn in X, Y, Z0. unfold scale. rewrite X, Y, Z0. reflexivity.
Qed.
Lemma xy_ray c x y : good_view c = true -> (0 <= x < width c)%Z -> (0 <= y < height c)%Z -> exists h v, xy_to_hv c x y = Some (h, v) /\
  - 180 < h <= 180 /\ 0 <= v <= 180 /\ seen_at (width c) (height c) (fov c) (hori c) (verti c) (forward h v) (IZR x) (IZR y).
Proof.
  intros G X Y. unfold xy_to_hv. rewrite G. replace (x <? 0)%Z with false by (symmetry; apply Z.ltb_ge; lia). replace (width c <=? x)%Z with false by (symmetry; apply Z.leb_gt; lia).
  replace (y <? 0)%Z with false by (symmetry; apply Z.ltb_ge; lia). replace (height c <=? y)%Z with false by (symmetry; apply Z.leb_gt; lia). cbn [negb orb]. cbv zeta.
  set (w := apply _ _). assert (E : w = vec_of (ray c (IZR x) (IZR y))).
  { unfold w. rewrite view_inv. unfold vec_of, ray, plus, scale, forward, right, up. cbn [vx vy vz fst snd]. rewrite !d2r_deg.
    assert (T : - IZR (height c) / 2 / tan (deg (fov c) / 2) = - (IZR (height c) / 2 / tan (deg (fov c) / 2))) by (unfold Rdiv; ring). rewrite T. f_equal; ring. }
  rewrite E. eexists. eexists. split; [ reflexivity |]. exact (angles_of c (IZR x) (IZR y) G).
Qed.
Lemma xy_none c x y : good_view c = false \/ ~ ((0 <= x < width c)%Z /\ (0 <= y < height c)%Z) -> xy_to_hv c x y = None.
Proof.
  intro H. unfold xy_to_hv. match goal with |- (if ?b then _ else _) = _ => replace b with true; [ reflexivity |] end. symmetry. rewrite !orb_true_iff, negb_true_iff, !Z.ltb_lt, !Z.leb_le. destruct H as [->|H]; [ tauto | lia ].
Qed.

Lemma trunc_nearest r n : - / 2 <= r -> nearest r n -> trunc (r + / 2) = n.
Proof.
  intros P N. unfold nearest in N. unfold trunc. destruct (Rle_dec 0 (r + / 2)) as [_|H]; [| lra ]. symmetry. unfold Int_part.
  assert (U : (n + 1)%Z = Rdefinitions.up (r + / 2)); [| lia ]. apply tech_up; rewrite plus_IZR; lra.
Qed.
Lemma unit_dot t m : inner t t = 1 -> inner m m = 1 -> -1 <= inner t m <= 1.
Proof.
  destruct t as ((a & b) & c), m as ((d & e) & f). unfold inner. cbn [fst snd]. intros A B.
  pose proof (Rle_0_sqr (a - d)). pose proof (Rle_0_sqr (b - e)). pose proof (Rle_0_sqr (c - f)). pose proof (Rle_0_sqr (a + d)). pose proof (Rle_0_sqr (b + e)). pose proof (Rle_0_sqr (c + f)). unfold Rsqr in *. lra.
Qed.
Lemma acos_90 q : -1 <= q <= 1 -> ltb 90 (r2d (acos q)) = true <-> q < 0.
Proof.
  intro Q. rewrite ltb_spec. pose proof PI_RGT_0 as P. pose proof (acos_bound q) as B. assert (E : 90 < r2d (acos q) <-> PI / 2 < acos q).
  { unfold r2d. split; intro H.
    - apply Rmult_lt_reg_r with (180 / PI); [ apply Rdiv_lt_0_compat; lra |]. replace (PI / 2 * (180 / PI)) with 90 by (field; lra). exact H.
    - apply Rmult_lt_compat_r with (r := 180 / PI) in H; [| apply Rdiv_lt_0_compat; lra ]. replace (PI / 2 * (180 / PI)) with 90 in H by (field; lra). exact H. }
  rewrite E. pose proof (cos_acos q Q) as C. split; intro H.
  - rewrite <- C, <- cos_PI2. apply cos_decreasing_1; lra.
  - apply Rnot_le_lt. intro K. assert (0 <= cos (acos q)); [| lra ]. apply cos_ge_0; lra.
Qed.
Definition frac (c : view) (h v : R) : R := inner (forward h v) (forward (hori c) (verti c)).
Lemma hv_unfold c h v : good_view c = true -> -180 < h <= 180 -> 0 <= v <= 180 -> hv_to_xy c h v =
  if ltb (frac c h v) 0 then Behind else if Req_EM_T (frac c h v) 0 then Undefined else
    let xn := inner (forward h v) (right (hori c) (verti c)) / frac c h v / (IZR (width c) / IZR (height c) * 2 * tan (d2r (fov c) / 2)) in
    let yn := inner (forward h v) (up (hori c) (verti c)) / frac c h v / (2 * tan (d2r (fov c) / 2)) in
    match to_int ((xn + / 2) * IZR (width c) + / 2), to_int ((/ 2 - yn) * IZR (height c) + / 2) with Some x, Some y => At x y | _, _ => Undefined end.
Proof.
  intros G H V. unfold hv_to_xy. rewrite G, (proj2 (good_angles_spec h v)) by auto. cbn [andb negb]. cbv zeta. rewrite !direction_forward, apply_view. cbn [vx vy vz].
  destruct (basis h v) as (N & _). destruct (basis (hori c) (verti c)) as (M & _).
  assert (D : dot (vec_of (forward h v)) (vec_of (forward (hori c) (verti c))) / (dot (vec_of (forward h v)) (vec_of (forward h v)) * dot (vec_of (forward (hori c) (verti c))) (vec_of (forward (hori c) (verti c)))) = frac c h v).
  { change (dot (vec_of (forward h v)) (vec_of (forward h v))) with (inner (forward h v) (forward h v)).
    change (dot (vec_of (forward (hori c) (verti c))) (vec_of (forward (hori c) (verti c)))) with (inner (forward (hori c) (verti c)) (forward (hori c) (verti c))).
    change (dot (vec_of (forward h v)) (vec_of (forward (hori c) (verti c)))) with (frac c h v). rewrite N, M. field. }
  rewrite D. pose proof (acos_90 (frac c h v) (unit_dot _ _ N M)) as A. fold (frac c h v).
  destruct (ltb 90 (r2d (acos (frac c h v)))) eqn:L.
  - rewrite (proj2 (ltb_spec _ _)); [ reflexivity | tauto ].
  - assert (F : ltb (frac c h v) 0 = false). { apply ltb_false. apply Rnot_lt_le. intro K. apply A in K. discriminate. }
    rewrite F. rewrite Ropp_involutive. destruct (Req_EM_T (- frac c h v) 0) as [E|E], (Req_EM_T (frac c h v) 0) as [E'|E']; try reflexivity; lra.
Qed.
Lemma project c h v x y : good_view c = true -> -180 < h <= 180 -> 0 <= v <= 180 -> seen_at (width c) (height c) (fov c) (hori c) (verti c) (forward h v) x y ->
  hv_to_xy c h v = match to_int (x + / 2), to_int (y + / 2) with Some a, Some b => At a b | _, _ => Undefined end.
Proof.
  intros G H V (k & K & S). fold (ray c x y) in S. rewrite hv_unfold by assumption. pose proof (focal_pos c G) as F. destruct (ray_inner c x y) as (A & B & D).
  assert (Q : frac c h v = k * (IZR (height c) / 2 / tan (deg (fov c) / 2))) by (unfold frac; rewrite S, inner_scale, A; reflexivity).
  rewrite S, !inner_scale, B, D. assert (P : 0 < frac c h v) by (rewrite Q; apply Rmult_lt_0_compat; assumption).
  rewrite (proj2 (ltb_false _ _)) by lra. destruct (Req_EM_T (frac c h v) 0) as [E|_]; [ lra |]. cbv zeta. rewrite Q.
  apply good_view_spec in G. destruct G as (W & H0 & FF & _). pose proof (tan_half_pos _ FF) as T. rewrite <- d2r_deg. set (t := tan (d2r (fov c) / 2)) in *. apply IZR_le in W, H0. set (w := IZR (width c)) in *. set (hh := IZR (height c)) in *.
  replace ((k * (x - w / 2) / (k * (hh / 2 / t)) / (w / hh * 2 * t) + / 2) * w + / 2) with (x + / 2) by (field; repeat split; lra).
  replace ((/ 2 - k * (hh / 2 - y) / (k * (hh / 2 / t)) / (2 * t)) * hh + / 2) with (y + / 2) by (field; repeat split; lra). reflexivity.
Qed.

Lemma to_int_nearest r n : - / 2 <= r -> nearest r n -> (n <= int_max)%Z -> to_int (r + / 2) = Some n.
Proof.
  intros P N M. unfold to_int. cbv zeta. rewrite (trunc_nearest r n P N). assert (0 <= n)%Z. { unfold nearest in N. assert (- 1 < IZR n) by lra. apply (lt_IZR (-1)) in H. lia. }
  replace (_ && _)%bool with true; [ reflexivity |]. symmetry. rewrite andb_true_iff, !Z.leb_le. unfold int_max in *. lia.
Qed.
Lemma nearest_int n : nearest (IZR n) n. Proof. unfold nearest. lra. Qed.
Lemma nearest_half n : nearest (IZR n / 2) ((n + 1) / 2).
Proof.
  unfold nearest. pose proof (Z.div_mod (n + 1) 2 ltac:(lia)) as E. pose proof (Z.mod_pos_bound (n + 1) 2 ltac:(lia)) as B. generalize dependent ((n + 1) / 2)%Z. intros q E. generalize dependent ((n + 1) mod 2)%Z. intros r E B.
  assert (N : (n = 2 * q + r - 1)%Z) by lia. rewrite N. rewrite minus_IZR, plus_IZR, mult_IZR. assert (0 <= IZR r <= 1) by (split; apply IZR_le; lia). lra.
Qed.
Lemma round_trip c x y : good_view c = true -> (width c <= int_max)%Z -> (height c <= int_max)%Z -> (0 <= x < width c)%Z -> (0 <= y < height c)%Z ->
  exists h v, xy_to_hv c x y = Some (h, v) /\ hv_to_xy c h v = At x y.
Proof.
  intros G W H X Y. destruct (xy_ray c x y G X Y) as (h & v & E & A & B & S). exists h, v. split; [ exact E |]. rewrite (project c h v _ _ G A B S).
  assert (0 <= IZR x) by (apply IZR_le; lia). assert (0 <= IZR y) by (apply IZR_le; lia). rewrite (to_int_nearest _ x) by (lra || apply nearest_int || lia).
  rewrite (to_int_nearest _ y) by (lra || apply nearest_int || lia). reflexivity.
Qed.
Lemma centre c : good_view c = true -> (width c <= int_max)%Z -> (height c <= int_max)%Z -> hv_to_xy c (hori c) (verti c) = At ((width c + 1) / 2) ((height c + 1) / 2).
Proof.
  intros G W H. pose proof G as G'. apply good_view_spec in G'. destruct G' as (W1 & H1 & F & A & B).
  rewrite (project c (hori c) (verti c) (IZR (width c) / 2) (IZR (height c) / 2) G A B).
  - assert (1 <= IZR (width c)) by now apply IZR_le. assert (1 <= IZR (height c)) by now apply IZR_le.
    assert (forall n, (1 <= n <= int_max)%Z -> ((n + 1) / 2 <= int_max)%Z). { intros n N. apply Z.div_le_upper_bound; unfold int_max in *; lia. }
    rewrite (to_int_nearest _ ((width c + 1) / 2)) by (lra || apply nearest_half || auto). rewrite (to_int_nearest _ ((height c + 1) / 2)) by (lra || apply nearest_half || auto). reflexivity.
  - pose proof (focal_pos c G) as P. exists (/ (IZR (height c) / 2 / tan (deg (fov c) / 2))). split; [ now apply Rinv_0_lt_compat |].
    destruct (forward (hori c) (verti c)) as ((a & b) & e). unfold scale, plus, right, Spec.Ptz.up. cbn [fst snd]. set (f := IZR (height c) / 2 / tan (deg (fov c) / 2)) in *. f_equal; [ f_equal |]; field; lra.
Qed.
Lemma right_angle c : good_view c = true -> exists h v, -180 < h <= 180 /\ 0 <= v <= 180 /\ inner (forward h v) (forward (hori c) (verti c)) = 0.
Proof.
  intro G. apply good_view_spec in G. destruct G as (_ & _ & _ & A & B).
  assert (Q : exists h, -180 < h <= 180 /\ cos (deg h) = - sin (deg (hori c)) /\ sin (deg h) = cos (deg (hori c))).
  { destruct (Rle_dec (hori c) 90) as [L|L].
    - exists (hori c + 90). split; [ lra |]. replace (deg (hori c + 90)) with (PI / 2 + deg (hori c)) by (unfold deg; field). rewrite <- cos_sin. split; [| symmetry; rewrite cos_sin; reflexivity ]. rewrite cos_sin. replace (PI / 2 + (PI / 2 + deg (hori c))) with (deg (hori c) + PI) by field. now rewrite neg_sin.
    - exists (hori c - 270). split; [ lra |]. replace (deg (hori c - 270)) with (PI / 2 + deg (hori c) - 2 * PI) by (unfold deg; field).
      assert (P : forall x, cos (x - 2 * PI) = cos x /\ sin (x - 2 * PI) = sin x). { intro x. split; [ rewrite <- (cos_period (x - 2 * PI) 1) | rewrite <- (sin_period (x - 2 * PI) 1) ]; f_equal; cbn; ring. }
      destruct (P (PI / 2 + deg (hori c))) as (-> & ->). split; [| symmetry; apply cos_sin ]. rewrite cos_sin. replace (PI / 2 + (PI / 2 + deg (hori c))) with (deg (hori c) + PI) by field. now rewrite neg_sin. }
  destruct Q as (h & H & C & S). exists h, 90. split; [ exact H |]. split; [ lra |]. unfold inner, forward. cbn [fst snd]. rewrite C, S. replace (deg 90) with (PI / 2) by (unfold deg; field). rewrite cos_PI2. ring.
Qed.
Lemma half_bounds w b : (0 <= b < w)%Z -> (0 <= half (w - b) < w /\ 0 <= half (w + b) < w /\ half (w + b) - half (w - b) = b)%Z.
Proof. intro H. unfold half. rewrite !Z.quot_div_nonneg by lia. pose proof (Z.div_mod (w - b) 2 ltac:(lia)). pose proof (Z.mod_pos_bound (w - b) 2 ltac:(lia)). pose proof (Z.div_mod (w + b) 2 ltac:(lia)). pose proof (Z.mod_pos_bound (w + b) 2 ltac:(lia)). lia. Qed.
Lemma half_double a : half (a + a) = a. Proof. unfold half. replace (a + a)%Z with (a * 2)%Z by lia. apply Z.quot_mul. lia. Qed.
Lemma box_same c bw bh : good_view c = true -> (width c <= int_max)%Z -> (height c <= int_max)%Z -> (0 <= bw < width c)%Z -> (0 <= bh < height c)%Z ->
  bounding_box c c bw bh = Box ((width c - bw) / 2) ((height c - bh) / 2) bw bh.
Proof.
  intros G W H BW BH. unfold bounding_box. pose proof G as G'. apply good_view_spec in G'. destruct G' as (_ & _ & _ & A & B). rewrite (proj2 (good_angles_spec _ _)) by auto.
  replace (bw <? 0)%Z with false by (symmetry; apply Z.ltb_ge; lia). replace (width c <? bw)%Z with false by (symmetry; apply Z.ltb_ge; lia).
  replace (bh <? 0)%Z with false by (symmetry; apply Z.ltb_ge; lia). replace (height c <? bh)%Z with false by (symmetry; apply Z.ltb_ge; lia). cbn [negb orb]. cbv zeta.
  destruct (half_bounds _ _ BW) as (L & R0 & E1). destruct (half_bounds _ _ BH) as (T & B0 & E2).
  destruct (round_trip c _ _ G W H L T) as (h1 & v1 & -> & ->). destruct (round_trip c _ _ G W H L B0) as (h2 & v2 & -> & ->).
  destruct (round_trip c _ _ G W H R0 T) as (h3 & v3 & -> & ->). destruct (round_trip c _ _ G W H R0 B0) as (h4 & v4 & -> & ->).
  rewrite !half_double. rewrite <- (Z.quot_div_nonneg (width c - bw)), <- (Z.quot_div_nonneg (height c - bh)) by lia. fold (half (width c - bw)) (half (height c - bh)). f_equal; lia.
Qed.
Lemma box_full bgt cur bw bh : (1 <= width bgt)%Z -> (1 <= height bgt)%Z -> (bw = width bgt \/ bh = height bgt) -> (0 <= bw <= width bgt)%Z -> (0 <= bh <= height bgt)%Z -> bounding_box bgt cur bw bh = Box_error.
Proof.
  intros W H F BW BH. unfold bounding_box. destruct (negb (good_angles _ _) || _ || _ || _ || _); [ reflexivity |]. cbv zeta.
  assert (N : xy_to_hv bgt (half (width bgt + bw)) (half (height bgt + bh)) = None).
  { apply xy_none. right. destruct F as [-> | ->]; rewrite half_double; lia. }
  rewrite N. repeat match goal with |- match ?e with Some _ => _ | None => _ end = _ => destruct e as [(? & ?)|]; [| reflexivity ] end. reflexivity.
Qed.
Lemma left_zero c : good_view c = true -> exists h v, -180 < h <= 180 /\ 0 <= v <= 180 /\ seen_at (width c) (height c) (fov c) (hori c) (verti c) (forward h v) (-1) 0 /\ hv_to_xy c h v = At 0 0.
Proof.
  intro G. destruct (angles_of c (-1) 0 G) as (A & B & S). eexists. eexists. split; [ exact A |]. split; [ exact B |]. split; [ exact S |]. rewrite (project c _ _ _ _ G A B S).
  rewrite (to_int_nearest 0 0) by (lra || apply nearest_int || (unfold int_max; lia)). assert (T : to_int (-1 + / 2) = Some 0%Z); [| now rewrite T ].
  unfold to_int. cbv zeta. unfold trunc. destruct (Rle_dec 0 (-1 + / 2)) as [L|_]; [ lra |]. replace (Int_part (- (-1 + / 2))) with 0%Z; [ reflexivity |].
  unfold Int_part. assert (U : 1%Z = Rdefinitions.up (- (-1 + / 2))) by (apply tech_up; lra). lia.
Qed.
Lemma behind_iff c h v : good_view c = true -> -180 < h <= 180 -> 0 <= v <= 180 -> hv_to_xy c h v = Behind <-> inner (forward h v) (forward (hori c) (verti c)) < 0.
Proof.
  intros G H V. rewrite hv_unfold by assumption. fold (frac c h v). destruct (ltb (frac c h v) 0) eqn:L.
  - apply ltb_spec in L. now split.
  - apply ltb_false in L. split; [| lra ]. destruct (Req_EM_T _ 0); [ discriminate |]. cbv zeta. destruct (to_int _) as [|]; [ destruct (to_int _) |]; discriminate.
Qed.
Lemma side_undefined c h v : good_view c = true -> -180 < h <= 180 -> 0 <= v <= 180 -> inner (forward h v) (forward (hori c) (verti c)) = 0 -> hv_to_xy c h v = Undefined.
Proof. intros G H V E. rewrite hv_unfold by assumption. unfold frac. rewrite E. rewrite (proj2 (ltb_false 0 0)) by lra. destruct (Req_EM_T 0 0) as [_|K]; [ reflexivity | now contradiction K ]. Qed.
Lemma project_nearest c h v x y m n : good_view c = true -> -180 < h <= 180 -> 0 <= v <= 180 -> seen_at (width c) (height c) (fov c) (hori c) (verti c) (forward h v) x y ->
  nearest x m -> nearest y n -> (0 <= m <= int_max)%Z -> (0 <= n <= int_max)%Z -> hv_to_xy c h v = At m n.
Proof.
  intros G H V S M N BM BN. rewrite (project c h v x y G H V S). assert (0 <= IZR m) by (apply IZR_le; lia). assert (0 <= IZR n) by (apply IZR_le; lia). pose proof M as M'. pose proof N as N'. unfold nearest in M', N'.
  rewrite (to_int_nearest x m), (to_int_nearest y n) by (lra || assumption || lia). reflexivity.
Qed.
(* the pixel of one view that shows what a pixel of another view shows *)
Definition corner (from to : view) (x y x' y' : Z) : Prop := exists h v, xy_to_hv from x y = Some (h, v) /\ hv_to_xy to h v = At x' y'.
Lemma box_corners bgt cur bw bh x y w h : bounding_box bgt cur bw bh = Box x y w h -> (0 <= w)%Z /\ (0 <= h)%Z /\
  exists x1 y1 x2 y2 x3 y3 x4 y4, corner bgt cur (Z.quot (width bgt - bw) 2) (Z.quot (height bgt - bh) 2) x1 y1 /\ corner bgt cur (Z.quot (width bgt - bw) 2) (Z.quot (height bgt + bh) 2) x2 y2 /\
    corner bgt cur (Z.quot (width bgt + bw) 2) (Z.quot (height bgt - bh) 2) x3 y3 /\ corner bgt cur (Z.quot (width bgt + bw) 2) (Z.quot (height bgt + bh) 2) x4 y4 /\
    (x = Z.min (Z.quot (x1 + x2) 2) (Z.quot (x3 + x4) 2) /\ x + w = Z.max (Z.quot (x1 + x2) 2) (Z.quot (x3 + x4) 2) /\ y = Z.min (Z.quot (y1 + y3) 2) (Z.quot (y2 + y4) 2) /\ y + h = Z.max (Z.quot (y1 + y3) 2) (Z.quot (y2 + y4) 2))%Z.
Proof.
  unfold bounding_box, half. destruct (_ || _); [ discriminate |]. cbv zeta.
  destruct (xy_to_hv bgt (Z.quot (width bgt - bw) 2) (Z.quot (height bgt - bh) 2)) as [[h1 v1]|] eqn:E1; [| discriminate ].
  destruct (xy_to_hv bgt (Z.quot (width bgt - bw) 2) (Z.quot (height bgt + bh) 2)) as [[h2 v2]|] eqn:E2; [| discriminate ].
  destruct (xy_to_hv bgt (Z.quot (width bgt + bw) 2) (Z.quot (height bgt - bh) 2)) as [[h3 v3]|] eqn:E3; [| discriminate ].
  destruct (xy_to_hv bgt (Z.quot (width bgt + bw) 2) (Z.quot (height bgt + bh) 2)) as [[h4 v4]|] eqn:E4; [| discriminate ].
  destruct (hv_to_xy cur h1 v1) as [| | |x1 y1] eqn:F1; try discriminate. destruct (hv_to_xy cur h2 v2) as [| | |x2 y2] eqn:F2; try discriminate.
  destruct (hv_to_xy cur h3 v3) as [| | |x3 y3] eqn:F3; try discriminate. destruct (hv_to_xy cur h4 v4) as [| | |x4 y4] eqn:F4; try discriminate.
  intro X. injection X as <- <- <- <-. split; [ lia |]. split; [ lia |]. exists x1, y1, x2, y2, x3, y3, x4, y4.
  split; [ exists h1, v1; auto |]. split; [ exists h2, v2; auto |]. split; [ exists h3, v3; auto |]. split; [ exists h4, v4; auto |].
  rewrite (Z.add_comm x3 x4), (Z.add_comm y2 y4). lia.
Qed.
