From Coq Require Import ZArith List Bool QArith Qround Qabs Lia Lqa.
From Verif Require Import Lib.Grid Model.Geometry Spec.Geometry.
Import ListNotations.
Open Scope Z_scope.

Lemma clip_spec rows cols i o : rw i = rw o -> rh i = rh o ->
  let X := Z.max 0 (rx o) in let Y := Z.max 0 (ry o) in
  let W := Z.min (rx o + rw o) cols - X in let H := Z.min (ry o + rh o) rows - Y in
  clip rows cols i o = (Rect (rx i + (X - rx o)) (ry i + (Y - ry o)) W H, Rect X Y W H).
Proof.
  destruct i as [ix iy w h], o as [ox oy w' h']. cbn [rw rh rx ry]. intros -> ->.
  unfold clip, clip_x, clip_y, clip_r, clip_b. cbn [rx ry rw rh].
  repeat match goal with |- context [?a <? ?b] => destruct (Z.ltb_spec a b); cbn [rx ry rw rh] end;
  f_equal; f_equal; lia.
Qed.
Lemma is_int_ok x : - 2 ^ 31 <= x < 2 ^ 31 -> is_int x = true.
Proof. intro H. unfold is_int. apply andb_true_iff. split; [ apply Z.leb_le | apply Z.ltb_lt ]; lia. Qed.

Lemma count_zero {A} (p : A -> bool) l : (forall x, In x l -> p x = false) -> count p l = 0.
Proof. intro H. unfold count. now rewrite filter_none. Qed.

Ltac bools := repeat match goal with
  | H : _ && _ = true |- _ => apply andb_true_iff in H; destruct H
  | H : (_ <=? _) = true |- _ => apply Z.leb_le in H
  | H : (_ <? _) = true |- _ => apply Z.ltb_lt in H
  end.
Ltac zcase := repeat match goal with |- context [?a <=? ?b] => destruct (Z.leb_spec a b) | |- context [?a <? ?b] => destruct (Z.ltb_spec a b) end.

Lemma copy_correct {A} (img out : image A) ir or mask :
  0 < irows img -> 0 < icols img -> 0 < irows out < 2 ^ 30 -> 0 < icols out < 2 ^ 30 ->
  coords_ok ir -> coords_ok or -> rw ir = rw or -> rh ir = rh or -> rect_in ir (irows img) (icols img) ->
  exists valid out', copyValidPixelsTo img ir out or mask =
      Copied (count (fun p => receives ir or mask (fst p) (snd p)) (grid 0 (irows out) 0 (icols out))) valid out' /\
    irows out' = irows out /\ icols out' = icols out /\
    (forall y x, 0 <= y < irows out -> 0 <= x < icols out ->
       px out' y x = if receives ir or mask y x then px img (ry ir + (y - ry or)) (rx ir + (x - rx or)) else px out y x) /\
    (forall y x, 0 <= y < irows out -> 0 <= x < icols out -> inside valid y x = receives ir or None y x).
Proof.
  intros Ir Ic Or Oc (Ix & Iy & Iw & Ih & Ia) (Ox & Oy & Ow & Oh & Oa) Ew Eh (R1 & R2 & R3 & R4).
  unfold copyValidPixelsTo. rewrite (proj2 (Z.ltb_lt 0 _) Ir), (proj2 (Z.ltb_lt 0 _) Ic).
  rewrite (proj2 (Z.ltb_lt 0 (irows out))), (proj2 (Z.ltb_lt 0 (icols out))) by lia. cbn [andb negb].
  rewrite Ew, Eh, !Z.eqb_refl. cbn [andb negb].
  rewrite (is_int_ok (rw or * rh or)) by nia. cbn [negb].
  assert (EMPTY : (forall y x, 0 <= y < irows out -> 0 <= x < icols out -> receives ir or None y x = false) ->
    (exists valid out', Copied 0 (Rect (rx or) (ry or) 0 0) out = 
      Copied (count (fun p => receives ir or mask (fst p) (snd p)) (grid 0 (irows out) 0 (icols out))) valid out' /\
    irows out' = irows out /\ icols out' = icols out /\
    (forall y x, 0 <= y < irows out -> 0 <= x < icols out ->
       px out' y x = if receives ir or mask y x then px img (ry ir + (y - ry or)) (rx ir + (x - rx or)) else px out y x) /\
    (forall y x, 0 <= y < irows out -> 0 <= x < icols out -> inside valid y x = receives ir or None y x))).
  { intros N. exists (Rect (rx or) (ry or) 0 0), out.
    assert (N' : forall y x, 0 <= y < irows out -> 0 <= x < icols out -> receives ir or mask y x = false).
    { intros y x Hy Hx. specialize (N y x Hy Hx). unfold receives in *. rewrite andb_true_r in N. rewrite N. reflexivity. }
    split; [ f_equal; symmetry; apply count_zero; intros p I; apply in_grid in I; apply N'; lia |].
    repeat split; auto; intros y x Hy Hx; [ now rewrite N' | rewrite N by assumption ].
    unfold inside. cbn [rx ry rw rh]. zcase; cbn [andb]; auto; lia. }
  destruct (Z.leb_spec (rw or * rh or) 0) as [A0|A0].
  { apply EMPTY. intros y x Hy Hx. unfold receives. zcase; cbn [andb]; auto; nia. }
  rewrite (is_int_ok (rx ir + rw or)), (is_int_ok (ry ir + rh or)), (is_int_ok (rx or + rw or)), (is_int_ok (ry or + rh or)) by lia. cbn [andb negb].
  rewrite (proj2 (Z.leb_le 0 (rx ir))), (proj2 (Z.leb_le 0 (ry ir))), (proj2 (Z.leb_le _ (icols img))), (proj2 (Z.leb_le _ (irows img))) by lia. cbn [andb negb].
  destruct ((rx or + rw or <=? 0) || (icols out <=? rx or) || ((ry or + rh or <=? 0) || (irows out <=? ry or))) eqn:D.
  { apply EMPTY. intros y x Hy Hx. unfold receives. 
    repeat (apply orb_true_iff in D; destruct D as [D|D]); apply Z.leb_le in D || (apply orb_true_iff in D; destruct D as [D|D]; apply Z.leb_le in D);
    zcase; cbn [andb]; auto; lia. }
  repeat (apply orb_false_iff in D; destruct D as [D ?D]). apply orb_false_iff in D0. destruct D0 as [D0 D2].
  apply Z.leb_gt in D, D0, D1, D2.
  rewrite (clip_spec (irows out) (icols out) ir or Ew Eh). cbv zeta.
  set (X := Z.max 0 (rx or)). set (Y := Z.max 0 (ry or)). set (W := Z.min (rx or + rw or) (icols out) - X). set (H := Z.min (ry or + rh or) (irows out) - Y).
  cbn [rw rh rx ry].
  assert (W0 : 0 < W) by (unfold W, X; nia). assert (H0 : 0 < H) by (unfold H, Y; nia).
  rewrite (proj2 (Z.leb_le 0 W)), (proj2 (Z.leb_le 0 H)) by lia. cbn [andb negb].
  assert (IN : forall y x, 0 <= y < irows out -> 0 <= x < icols out -> inside (Rect X Y W H) y x = receives ir or None y x).
  { intros y x Hy Hx. unfold inside, receives. cbn [rx ry rw rh]. rewrite andb_true_r.
    assert (W1 : X + W = Z.min (rx or + rw or) (icols out)) by (unfold W; lia). assert (H1 : Y + H = Z.min (ry or + rh or) (irows out)) by (unfold H; lia).
    rewrite W1, H1. unfold X, Y. zcase; cbn [andb]; auto; lia. }
  destruct mask as [m|].
  - eexists. eexists. split; [| split; [| split; [| split; [| exact IN ]]]].
    + f_equal. rewrite (grid_shift Y H X W (ry ir - ry or) (rx ir - rx or)) || 
      (replace (ry ir + (Y - ry or)) with (Y + (ry ir - ry or)) by lia; replace (rx ir + (X - rx or)) with (X + (rx ir - rx or)) by lia;
       rewrite grid_shift, count_map; cbn [fst snd]).
      rewrite <- (count_subgrid _ Y H X W (irows out) (icols out)) by (unfold W, H, X, Y; lia).
      apply count_ext_in. intros [y x] I. apply in_grid in I. cbn [fst snd] in *.
      change ((Y <=? y) && (y <? Y + H) && ((X <=? x) && (x <? X + W))) with (inside (Rect X Y W H) y x). rewrite IN by lia.
      unfold receives. rewrite andb_true_r. f_equal. f_equal; lia.
    + reflexivity.
    + reflexivity.
    + intros y x Hy Hx. cbn [px irows icols]. rewrite IN by assumption. unfold receives. rewrite andb_true_r.
      replace (y + (ry ir + (Y - ry or) - Y)) with (ry ir + (y - ry or)) by lia.
      replace (x + (rx ir + (X - rx or) - X)) with (rx ir + (x - rx or)) by lia. reflexivity.
  - eexists. eexists. split; [| split; [| split; [| split; [| exact IN ]]]].
    + f_equal. rewrite Z.mul_comm, <- (grid_length Y H X W) by lia. rewrite <- count_true.
      rewrite <- (count_subgrid _ Y H X W (irows out) (icols out)) by (unfold W, H, X, Y; lia).
      apply count_ext_in. intros [y x] I. apply in_grid in I. cbn [fst snd] in *. rewrite andb_true_r.
      change ((Y <=? y) && (y <? Y + H) && ((X <=? x) && (x <? X + W))) with (inside (Rect X Y W H) y x). apply IN; lia.
    + reflexivity.
    + reflexivity.
    + intros y x Hy Hx. cbn [px irows icols]. rewrite IN by assumption.
      replace (y + (ry ir + (Y - ry or) - Y)) with (ry ir + (y - ry or)) by lia.
      replace (x + (rx ir + (X - rx or) - X)) with (rx ir + (x - rx or)) by lia. reflexivity.
Qed.

(** border extensions *)
Lemma border_inside b p len : 0 <= p < len -> borderInterpolate b p len = Some p.
Proof. intro H. unfold borderInterpolate. rewrite (proj2 (Z.leb_le 0 p)), (proj2 (Z.ltb_lt p len)) by lia. reflexivity. Qed.
Lemma border_wrap p len : 0 < len -> borderInterpolate BWrap p len = Some (wrap p len).
Proof.
  intro L. unfold borderInterpolate, wrap. destruct (Z.leb_spec 0 p), (Z.ltb_spec p len); cbn [andb].
  - f_equal. symmetry. apply Z.mod_small. lia.
  - rewrite (proj2 (Z.ltb_ge p 0)) by lia. rewrite (proj2 (Z.leb_le len p)) by lia. f_equal. apply Z.rem_mod_nonneg; lia.
  - rewrite (proj2 (Z.ltb_lt p 0)) by lia. f_equal.
    set (q := Z.quot (p - len + 1) len).
    assert (Q : q = - ((len - 1 - p) / len)).
    { unfold q. replace (p - len + 1) with (- (len - 1 - p)) by lia. rewrite Z.quot_opp_l by lia. rewrite Z.quot_div_nonneg by lia. reflexivity. }
    assert (D : p - q * len = p mod len).
    { rewrite Q. pose proof (Z.div_mod (len - 1 - p) len ltac:(lia)) as E. pose proof (Z.mod_pos_bound (len - 1 - p) len L) as B.
      set (k := (len - 1 - p) / len) in *. apply (Zmod_unique _ _ (- k)); lia. }
    rewrite D. pose proof (Z.mod_pos_bound p len L). rewrite (proj2 (Z.leb_gt len (p mod len))) by lia. reflexivity.
  - lia.
Qed.
Lemma border_replicate p len : 0 < len -> borderInterpolate BReplicate p len = Some (clamp p len).
Proof.
  intro L. unfold borderInterpolate, clamp. zcase; cbn [andb]; auto; try lia.
Qed.
Lemma bounce_in fuel len d p : 0 <= p < len -> bounce fuel len d p = p.
Proof. intro H. destruct fuel; auto. cbn [bounce]. rewrite (proj2 (Z.leb_le 0 p)), (proj2 (Z.ltb_lt p len)) by lia. reflexivity. Qed.
Lemma border_reflect p len : 0 < len -> - len <= p < 2 * len -> borderInterpolate BReflect p len = Some (mirror p len).
Proof.
  intros L H. unfold borderInterpolate, mirror. destruct (Z.leb_spec 0 p), (Z.ltb_spec p len); cbn [andb]; try lia.
  - rewrite (proj2 (Z.ltb_ge p 0)), (proj2 (Z.leb_gt len p)) by lia. reflexivity.
  - rewrite (proj2 (Z.ltb_ge p 0)), (proj2 (Z.leb_le len p)) by lia. f_equal. destruct (Z.eqb_spec len 1); [ lia |].
    destruct (Z.to_nat (Z.abs p + 2)) eqn:F; [ lia |]. cbn [bounce]. rewrite (proj2 (Z.ltb_ge p 0)), (proj2 (Z.ltb_ge p len)) by lia. rewrite andb_false_r.
    rewrite bounce_in by lia. lia.
  - rewrite (proj2 (Z.ltb_lt p 0)) by lia. f_equal. destruct (Z.eqb_spec len 1); [ lia |].
    destruct (Z.to_nat (Z.abs p + 2)) eqn:F; [ lia |]. cbn [bounce]. rewrite (proj2 (Z.ltb_lt p 0)), (proj2 (Z.leb_gt 0 p)) by lia. cbn [andb].
    rewrite bounce_in by lia. lia.
Qed.
Lemma border_reflect101 p len : 1 < len -> - len < p < 2 * len - 1 -> borderInterpolate BReflect101 p len = Some (mirror101 p len).
Proof.
  intros L H. unfold borderInterpolate, mirror101. destruct (Z.leb_spec 0 p), (Z.ltb_spec p len); cbn [andb]; try lia.
  - rewrite (proj2 (Z.ltb_ge p 0)), (proj2 (Z.leb_gt len p)) by lia. reflexivity.
  - rewrite (proj2 (Z.ltb_ge p 0)), (proj2 (Z.leb_le len p)) by lia. f_equal. destruct (Z.eqb_spec len 1); [ lia |].
    destruct (Z.to_nat (Z.abs p + 2)) eqn:F; [ lia |]. cbn [bounce]. rewrite (proj2 (Z.ltb_ge p 0)), (proj2 (Z.ltb_ge p len)) by lia. rewrite andb_false_r.
    rewrite bounce_in by lia. lia.
  - rewrite (proj2 (Z.ltb_lt p 0)) by lia. f_equal. destruct (Z.eqb_spec len 1); [ lia |].
    destruct (Z.to_nat (Z.abs p + 2)) eqn:F; [ lia |]. cbn [bounce]. rewrite (proj2 (Z.ltb_lt p 0)), (proj2 (Z.leb_gt 0 p)) by lia. cbn [andb].
    rewrite bounce_in by lia. lia.
Qed.

Lemma shift_guard d n : (Qabs d < inject_Z n)%Q -> Qle_bool (Qabs d) (inject_Z n) && negb (Qeq_bool (Qabs d) (inject_Z n)) = true.
Proof.
  intro H. apply andb_true_iff. split; [ apply Qle_bool_iff; lra |]. apply negb_true_iff. destruct (Qeq_bool _ _) eqn:E; auto.
  apply Qeq_bool_iff in E. exfalso. lra.
Qed.
Lemma qceil_Z k : Qceiling (inject_Z k) = k. Proof. apply Qceiling_Z. Qed.
Lemma abs_inject k : (Qabs (inject_Z k) == inject_Z (Z.abs k))%Q. Proof. reflexivity. Qed.
(** the general structure of the result *)
Lemma frac_spec d : let k := Qceiling d in let s := Qabs (d - inject_Z k) in (0 <= s /\ s < 1 /\ inject_Z k - s == d)%Q.
Proof.
  cbv zeta. pose proof (Qle_ceiling d) as L. pose proof (Qceiling_lt d) as U. revert L U. generalize (Qceiling d) as k. intros k L U.
  assert (E : (Qabs (d - inject_Z k) == inject_Z k - d)%Q). { rewrite Qabs_neg by lra. ring. }
  assert (I : (inject_Z (k - 1) == inject_Z k - 1)%Q). { unfold Z.sub. rewrite inject_Z_plus. reflexivity. }
  rewrite I in U. rewrite E. repeat split; lra.
Qed.
Lemma integer_shift img kx ky b fill : Z.abs kx < icols img -> Z.abs ky < irows img ->
  exists out, shift img (inject_Z kx) (inject_Z ky) b fill = Some out /\ irows out = irows img /\ icols out = icols img /\
    forall y x, px out y x = extend img b fill (y - ky) (x - kx).
Proof.
  intros Hx Hy. unfold shift. rewrite Zlt_Qlt in Hx, Hy.
  rewrite (shift_guard (inject_Z kx) _ Hx), (shift_guard (inject_Z ky) _ Hy). cbn [andb negb].
  rewrite !qceil_Z.
  assert (S : forall k, Qle_bool (Qabs (inject_Z k - inject_Z k)) feps = true).
  { intro k. apply Qle_bool_iff. setoid_replace (inject_Z k - inject_Z k)%Q with 0%Q by ring. unfold feps, Qle. cbn. lia. }
  rewrite !S. cbn [negb orb]. eexists. split; [ reflexivity |]. split; [ reflexivity |]. split; [ reflexivity |].
  intros y x. cbn [px copyMakeBorder]. f_equal; zcase; lia.
Qed.

Lemma extend_bilinear_comp (f g : Z -> Z -> Q) y x sy sx sy' sx' : (sy == sy')%Q -> (sx == sx')%Q ->
  (forall a b, f a b == g a b)%Q -> (bilinear f y x sy sx == bilinear g y x sy' sx')%Q.
Proof. intros A B C. unfold bilinear. rewrite A, B, !C. reflexivity. Qed.

Lemma subpixel_shift img dx dy b fill :
  let ix := Qceiling dx in let iy := Qceiling dy in let sx := (inject_Z ix - dx)%Q in let sy := (inject_Z iy - dy)%Q in
  (Qabs dx < inject_Z (icols img))%Q -> (Qabs dy < inject_Z (irows img))%Q ->
  (feps < sx \/ feps < sy \/ (sx == 0 /\ sy == 0))%Q ->
  exists out, shift img dx dy b fill = Some out /\ irows out = irows img /\ icols out = icols img /\
    forall y x, 0 <= y < irows img -> 0 <= x < icols img -> (0 < ix \/ x + 1 < icols img \/ (sx == 0)%Q) -> (0 < iy \/ y + 1 < irows img \/ (sy == 0)%Q) ->
    (px out y x == bilinear (extend img b fill) (y - iy) (x - ix) sy sx)%Q.
Proof.
  intros ix iy sx sy Hx Hy He. unfold shift. rewrite (shift_guard _ _ Hx), (shift_guard _ _ Hy). cbn [andb negb].
  fold ix iy. set (tx := Qabs (dx - inject_Z ix)). set (ty := Qabs (dy - inject_Z iy)).
  pose proof (frac_spec dx) as Fx. pose proof (frac_spec dy) as Fy. cbv zeta in Fx, Fy. fold ix in Fx. fold iy in Fy. fold tx in Fx. fold ty in Fy.
  assert (Ex : (tx == sx)%Q) by (unfold sx; lra). assert (Ey : (ty == sy)%Q) by (unfold sy; lra).
  set (P := copyMakeBorder img (if 0 <? iy then iy else 0) (if iy <? 0 then - iy else 0) (if 0 <? ix then ix else 0) (if ix <? 0 then - ix else 0) b fill).
  eexists. split; [ reflexivity |]. split; [ reflexivity |]. split; [ reflexivity |]. cbn [px irows icols].
  intros y x Ry Rx Cx Cy. set (oy := Z.max (- iy) 0). set (ox := Z.max (- ix) 0).
  assert (PX : forall a c, px P (y + a + oy) (x + c + ox) = extend img b fill (y - iy + a) (x - ix + c)).
  { intros a c. unfold P, copyMakeBorder. cbn [px]. unfold oy, ox. f_equal; zcase; lia. }
  destruct (negb (Qle_bool tx feps) || negb (Qle_bool ty feps)) eqn:E.
  - unfold sepFilter. cbn [px]. unfold bilinear. rewrite <- Ex, <- Ey.
    assert (PR : irows P = irows img + Z.abs iy) by (unfold P, copyMakeBorder; cbn [irows]; zcase; lia).
    assert (PC : icols P = icols img + Z.abs ix) by (unfold P, copyMakeBorder; cbn [icols]; zcase; lia).
    assert (AT : forall a c, (0 <= a <= 1) -> (0 <= c <= 1) -> y + a + oy < irows P -> x + c + ox < icols P ->
       at0 P (y + a + oy) (x + c + ox) = extend img b fill (y - iy + a) (x - ix + c)).
    { intros a c Ha Hc Ka Kc. unfold at0. rewrite (proj2 (Z.leb_le 0 _)), (proj2 (Z.ltb_lt _ _) Ka), (proj2 (Z.leb_le 0 (x + c + ox))), (proj2 (Z.ltb_lt _ _) Kc) by (unfold oy, ox; lia).
      cbn [andb]. apply PX. }
    assert (B0y : y + 0 + oy < irows P) by (unfold oy; lia). assert (B0x : x + 0 + ox < icols P) by (unfold ox; lia).
    pose proof (AT 0 0 ltac:(lia) ltac:(lia) B0y B0x) as A00. rewrite !Z.add_0_r in A00.
    replace (y + oy + 1) with (y + 1 + oy) by lia. replace (x + ox + 1) with (x + 1 + ox) by lia.
    assert (B1y : iy <= 0 /\ y + 1 = irows img \/ y + 1 + oy < irows P) by (unfold oy; lia).
    assert (B1x : ix <= 0 /\ x + 1 = icols img \/ x + 1 + ox < icols P) by (unfold ox; lia).
    assert (Zx : x + 1 + ox < icols P \/ (tx == 0)%Q). { destruct B1x as [[? ?]|]; auto. right. destruct Cx as [?|[?|?]]; try lia. lra. }
    assert (Zy : y + 1 + oy < irows P \/ (ty == 0)%Q). { destruct B1y as [[? ?]|]; auto. right. destruct Cy as [?|[?|?]]; try lia. lra. }
    rewrite A00.
    assert (T1 : (tx * at0 P (y + oy) (x + 1 + ox) == tx * extend img b fill (y - iy) (x - ix + 1))%Q).
    { destruct Zx as [Zx|Zx]; [| rewrite Zx; ring ]. pose proof (AT 0 1 ltac:(lia) ltac:(lia) B0y Zx) as A. rewrite !Z.add_0_r in A. rewrite A. reflexivity. }
    assert (T2 : (ty * at0 P (y + 1 + oy) (x + ox) == ty * extend img b fill (y - iy + 1) (x - ix))%Q).
    { destruct Zy as [Zy|Zy]; [| rewrite Zy; ring ]. pose proof (AT 1 0 ltac:(lia) ltac:(lia) Zy B0x) as A. rewrite !Z.add_0_r in A. rewrite A. reflexivity. }
    assert (T3 : (ty * (tx * at0 P (y + 1 + oy) (x + 1 + ox)) == ty * (tx * extend img b fill (y - iy + 1) (x - ix + 1)))%Q).
    { destruct Zy as [Zy|Zy]; [| rewrite Zy; ring ]. destruct Zx as [Zx|Zx]; [| rewrite Zx; ring ].
      rewrite (AT 1 1 ltac:(lia) ltac:(lia) Zy Zx). reflexivity. }
    set (e00 := extend img b fill (y - iy) (x - ix)) in *. set (e01 := extend img b fill (y - iy) (x - ix + 1)) in *.
    set (e10 := extend img b fill (y - iy + 1) (x - ix)) in *. set (e11 := extend img b fill (y - iy + 1) (x - ix + 1)) in *.
    set (a01 := at0 P (y + oy) (x + 1 + ox)) in *. set (a10 := at0 P (y + 1 + oy) (x + ox)) in *. set (a11 := at0 P (y + 1 + oy) (x + 1 + ox)) in *.
    transitivity ((1 - ty) * ((1 - tx) * e00 + tx * a01) + ((1 - tx) * (ty * a10) + ty * (tx * a11)))%Q; [ ring |].
    rewrite T1, T2, T3. ring.
  - apply orb_false_iff in E. destruct E as [E1 E2]. apply negb_false_iff, Qle_bool_iff in E1. apply negb_false_iff, Qle_bool_iff in E2.
    destruct He as [He|[He|[He1 He2]]]; try (exfalso; lra).
    pose proof (PX 0 0) as A. rewrite !Z.add_0_r in A. rewrite A. unfold bilinear. rewrite He1, He2. ring.
Qed.
Lemma subpixel_position dx : (inject_Z (Qceiling dx) - dx < 1 /\ 0 <= inject_Z (Qceiling dx) - dx)%Q.
Proof. pose proof (frac_spec dx) as F. cbv zeta in F. split; lra. Qed.
Lemma integer_shift_inside img kx ky b fill out y x : shift img (inject_Z kx) (inject_Z ky) b fill = Some out -> Z.abs kx < icols img -> Z.abs ky < irows img ->
  0 <= y - ky < irows img -> 0 <= x - kx < icols img -> px out y x = px img (y - ky) (x - kx).
Proof.
  intros S Hx Hy Ry Rx. destruct (integer_shift img kx ky b fill Hx Hy) as (o & S' & _ & _ & E). assert (o = out) by congruence. subst o.
  rewrite E. unfold extend. now rewrite !border_inside.
Qed.
Definition border_spec (b : border) (p len : Z) : option Z :=
  match b with
  | BConstant => if (0 <=? p) && (p <? len) then Some p else None
  | BReplicate => Some (clamp p len) | BReflect => Some (mirror p len) | BReflect101 => Some (mirror101 p len) | BWrap => Some (wrap p len)
  end.
Lemma integer_shift_border img kx ky b fill : Z.abs kx < icols img -> Z.abs ky < irows img ->
  exists out, shift img (inject_Z kx) (inject_Z ky) b fill = Some out /\
    forall y x, 0 <= y < irows img -> 0 <= x < icols img ->
     px out y x = match border_spec b (y - ky) (irows img), border_spec b (x - kx) (icols img) with Some y', Some x' => px img y' x' | _, _ => fill end.
Proof.
  intros Hx Hy. destruct (integer_shift img kx ky b fill Hx Hy) as (o & S' & _ & _ & E). exists o. split; auto.
  intros y x Ry Rx. rewrite E. unfold extend.
  assert (B : forall k p n, Z.abs k < n -> 0 <= p < n -> borderInterpolate b (p - k) n = border_spec b (p - k) n).
  { intros k p n K P. destruct b; cbn [border_spec].
    - unfold borderInterpolate. destruct (_ && _); reflexivity.
    - apply border_replicate; lia.
    - apply border_reflect; lia.
    - destruct (Z.eq_dec n 1) as [->|]; [| apply border_reflect101; lia ]. assert (k = 0) by lia. assert (p = 0) by lia. subst. reflexivity.
    - apply border_wrap; lia. }
  rewrite (B ky y), (B kx x) by assumption. reflexivity.
Qed.
