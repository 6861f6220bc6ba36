From Coq Require Import QArith Qround ZArith Lia Lqa Bool.
From Verif Require Import Model.Hsl Spec.Hsl.
Open Scope Q_scope.

Lemma ltb_spec a b : reflect (a < b) (ltb a b).
Proof.
  unfold ltb. destruct (Qle_bool b a) eqn:E; cbn; constructor.
  - apply Qle_bool_iff in E. lra.
  - apply Qnot_le_lt. intro H. apply Qle_bool_iff in H. congruence.
Qed.
Lemma eqb_spec a b : reflect (a == b) (Qeq_bool a b).
Proof. destruct (Qeq_bool a b) eqn:E; constructor; [ now apply Qeq_bool_eq | now apply Qeq_bool_neq ]. Qed.

Ltac cases := cbv zeta; repeat match goal with
  | |- context [ltb ?a ?b] => lazymatch constr:((a, b)) with context [ltb _ _] => fail | context [Qeq_bool _ _] => fail | _ => destruct (ltb_spec a b) end
  | |- context [Qeq_bool ?a ?b] => lazymatch constr:((a, b)) with context [ltb _ _] => fail | context [Qeq_bool _ _] => fail | _ => destruct (eqb_spec a b) end
  end.

(** h2rgb on each segment *)
Lemma h_neg p q t : - (1 # 3) <= t -> t <= 0 -> h2rgb p q t == p.
Proof. intros. unfold h2rgb. cases; try (exfalso; lra); try reflexivity. assert (t == 0) as -> by lra. ring. Qed.
Lemma h_up p q t : 0 <= t -> t <= 1 # 6 -> h2rgb p q t == p + (q - p) * (6 * t).
Proof. intros. unfold h2rgb. cases; try (exfalso; lra); try ring. assert (t == 1 # 6) as -> by lra. ring. Qed.
Lemma h_top p q t : 1 # 6 <= t -> t <= 1 # 2 -> h2rgb p q t == q.
Proof. intros. unfold h2rgb. cases; try (exfalso; lra); try reflexivity. assert (t == 1 # 2) as -> by lra. ring. Qed.
Lemma h_down p q t : 1 # 2 <= t -> t <= 2 # 3 -> h2rgb p q t == p + (q - p) * (4 - 6 * t).
Proof. intros. unfold h2rgb. cases; try (exfalso; lra); try ring. assert (t == 2 # 3) as -> by lra. ring. Qed.
Lemma h_bottom p q t : 2 # 3 <= t -> t <= 1 -> h2rgb p q t == p.
Proof. intros. unfold h2rgb. cases; try (exfalso; lra); reflexivity. Qed.
Lemma h_wrap p q t : 1 <= t -> t <= 7 # 6 -> h2rgb p q t == p + (q - p) * (6 * t - 6).
Proof.
  intros. unfold h2rgb. cases; try (exfalso; lra); try ring;
  solve [ assert (t == 1) as -> by lra; ring | assert (t == 7 # 6) as -> by lra; ring ].
Qed.
Lemma h_wrap_top p q t : 7 # 6 <= t -> t <= 4 # 3 -> h2rgb p q t == q.
Proof. intros. unfold h2rgb. cases; try (exfalso; lra); reflexivity. Qed.

Lemma ltb_comp a a' b b' : a == a' -> b == b' -> ltb a b = ltb a' b'.
Proof. intros E F. unfold ltb. now rewrite E, F. Qed.
Lemma h2rgb_comp p p' q q' t t' : p == p' -> q == q' -> t == t' -> h2rgb p q t == h2rgb p' q' t'.
Proof.
  intros Ep Eq Et. unfold h2rgb. cases; try (exfalso; lra); try (rewrite Ep, Eq, Et; reflexivity); try assumption.
Qed.

(** the three channels for hue number H in [0,6], as functions of the sector *)
Definition chans (p q H : Q) : Q * Q * Q := (h2rgb p q (H * (1 # 6) - (1 # 3)), h2rgb p q (H * (1 # 6)), h2rgb p q (H * (1 # 6) + (1 # 3))).
Ltac seg L := etransitivity; [ apply L; lra |].
Lemma s0 p q H : 0 <= H -> H <= 1 -> eq3 (chans p q H) (p, p + (q - p) * H, q).
Proof. intros A B. unfold eq3, chans; cbn [fst snd]. split; [| split ]; [ apply h_neg; lra | seg h_up; field | apply h_top; lra ]. Qed.
Lemma s1 p q H : 1 <= H -> H <= 2 -> eq3 (chans p q H) (p, q, p + (q - p) * (2 - H)).
Proof. intros A B. unfold eq3, chans; cbn [fst snd]. split; [| split ]; [ apply h_neg; lra | apply h_top; lra | seg h_down; field ]. Qed.
Lemma s2 p q H : 2 <= H -> H <= 3 -> eq3 (chans p q H) (p + (q - p) * (H - 2), q, p).
Proof. intros A B. unfold eq3, chans; cbn [fst snd]. split; [| split ]; [ seg h_up; field | apply h_top; lra | apply h_bottom; lra ]. Qed.
Lemma s3 p q H : 3 <= H -> H <= 4 -> eq3 (chans p q H) (q, p + (q - p) * (4 - H), p).
Proof. intros A B. unfold eq3, chans; cbn [fst snd]. split; [| split ]; [ apply h_top; lra | seg h_down; field | apply h_bottom; lra ]. Qed.
Lemma s4 p q H : 4 <= H -> H <= 5 -> eq3 (chans p q H) (q, p, p + (q - p) * (H - 4)).
Proof. intros A B. unfold eq3, chans; cbn [fst snd]. split; [| split ]; [ apply h_top; lra | apply h_bottom; lra | seg h_wrap; field ]. Qed.
Lemma s5 p q H : 5 <= H -> H <= 6 -> eq3 (chans p q H) (p + (q - p) * (6 - H), p, q).
Proof. intros A B. unfold eq3, chans; cbn [fst snd]. split; [| split ]; [ seg h_down; field | apply h_bottom; lra | apply h_wrap_top; lra ]. Qed.

(** saturation and lightness against p and q *)
Lemma qmax_spec a b : (a < b /\ qmax a b = b) \/ (b <= a /\ qmax a b = a).
Proof. unfold qmax. destruct (ltb_spec a b); [ left | right ]; split; auto; lra. Qed.
Lemma qmin_spec a b : (b < a /\ qmin a b = b) \/ (a <= b /\ qmin a b = a).
Proof. unfold qmin. destruct (ltb_spec b a); [ left | right ]; split; auto; lra. Qed.

Definition qof (s l : Q) : Q := if ltb l (1 # 2) then l * (1 + s) else l + s - l * s.
Lemma div_le_1 a b : 0 < b -> 0 <= a -> a <= b -> 0 <= a / b /\ a / b <= 1 /\ a / b * b == a.
Proof.
  intros Hb Ha Hab. split; [| split ].
  - apply Qle_shift_div_l; auto. lra.
  - apply Qle_shift_div_r; auto. lra.
  - field. lra.
Qed.
(** with d = q - p > 0 and l = (p+q)/2 the computed saturation gives back q *)
Definition sat_of (p q : Q) : Q := let l := (q + p) / 2 in qmax 0 (qmin ((q - p) / (1 - qabs (2 * l - 1))) 1).
Lemma sat_of_spec p q : 0 <= p -> p < q -> q <= 1 ->
  let s := sat_of p q in let l := (q + p) / 2 in 0 < s /\ s <= 1 /\ 0 < l /\ l < 1 /\ qof s l == q.
Proof.
  intros Hp Hd Hq. cbv zeta. unfold sat_of. set (l := (q + p) / 2).
  assert (El : 2 * l == q + p) by (unfold l; field).
  set (c := 1 - qabs (2 * l - 1)).
  assert (C : (l < (1 # 2) /\ c == 2 * l) \/ ((1 # 2) <= l /\ c == 2 - 2 * l)).
  { unfold c, qabs. destruct (ltb_spec (2 * l - 1) 0); [ left | right ]; split; lra. }
  assert (Cp : 0 < c) by (destruct C as [[? ->]|[? ->]]; lra).
  assert (Cd : q - p <= c) by (destruct C as [[? ->]|[? ->]]; lra).
  destruct (div_le_1 (q - p) c Cp ltac:(lra) Cd) as (D1 & D2 & D3). set (s := (q - p) / c) in *.
  assert (Sp : 0 < s). { unfold s. apply Qlt_shift_div_l; auto. lra. }
  assert (Es : qmax 0 (qmin s 1) == s).
  { destruct (qmin_spec s 1) as [[A ->]|[A ->]]; destruct (qmax_spec 0 s) as [[B E]|[B E]]; try lra; destruct (qmax_spec 0 1) as [[B' E']|[B' E']]; rewrite ?E, ?E'; lra. }
  set (sm := qmax 0 (qmin s 1)) in *. clearbody sm s c l. split; [ lra |]. split; [ lra |]. split; [ lra |]. split; [ lra |].
  unfold qof. destruct (ltb_spec l (1 # 2)) as [L|L]; destruct C as [[Cl Ec]|[Cl Ec]]; try (exfalso; lra); rewrite Ec in D3.
  - assert (E2 : 2 * (l * s) == q - p) by (rewrite <- D3; ring). assert (E3 : l * (1 + sm) == l + l * s) by (rewrite Es; ring). lra.
  - assert (E2 : 2 * (s - l * s) == q - p) by (rewrite <- D3; ring). assert (E3 : l + sm - l * sm == l + (s - l * s)) by (rewrite Es; ring). lra.
Qed.

Lemma bgr_generic hue s l : 0 < s -> 0 < l -> l < 1 -> eq3 (bgr_of hue s l) (chans (2 * l - qof s l) (qof s l) (hue / 60)).
Proof.
  intros. unfold bgr_of. cases; try (exfalso; lra). all: fold (qof s l).
  all: unfold eq3, chans, qof; cbn [fst snd]; cases; try (exfalso; lra).
  all: (split; [| split ]); apply h2rgb_comp; try reflexivity; field.
Qed.
Lemma chans_comp p p' q q' H H' : p == p' -> q == q' -> H == H' -> eq3 (chans p q H) (chans p' q' H').
Proof. intros. unfold eq3, chans; cbn [fst snd]. repeat split; apply h2rgb_comp; auto; rewrite H2; reflexivity. Qed.
Lemma eq3_trans a b c : eq3 a b -> eq3 b c -> eq3 a c.
Proof. intros (A & B & C) (A' & B' & C'). repeat split; etransitivity; eauto. Qed.
Lemma eq3_sym a b : eq3 a b -> eq3 b a.
Proof. intros (A & B & C). repeat split; now symmetry. Qed.

Definition hnum (b g r mx d : Q) : Q :=
  if Qeq_bool mx r then (g - b) / d + (if ltb g b then 6 else 0) else if Qeq_bool mx g then (b - r) / d + 2 else (r - g) / d + 4.

(** a channel strictly or weakly between the extremes: ratio in the unit interval *)
Lemma ratio x d : 0 < d -> 0 <= x -> x <= d -> 0 <= x / d /\ x / d <= 1 /\ d * (x / d) == x.
Proof. intros Hd H0 H1. destruct (div_le_1 x d Hd H0 H1) as (A & B & C). repeat split; auto. rewrite Qmult_comm. exact C. Qed.
Lemma opp_ratio a b d : ~ d == 0 -> (a - b) / d == - ((b - a) / d).
Proof. intro. field. auto. Qed.

Lemma chans_hnum b g r : let mx := qmax r (qmax g b) in let mn := qmin r (qmin g b) in mn < mx ->
  0 <= hnum b g r mx (mx - mn) /\ hnum b g r mx (mx - mn) < 6 /\ eq3 (chans mn mx (hnum b g r mx (mx - mn))) (b, g, r).
Proof.
  cbv zeta. set (mx := qmax r (qmax g b)). set (mn := qmin r (qmin g b)). intro Hd. set (d := mx - mn).
  assert (Hdp : 0 < d) by (unfold d; lra).
  assert (Hx : r <= mx /\ g <= mx /\ b <= mx /\ (mx == r \/ mx == g \/ mx == b)).
  { unfold mx. destruct (qmax_spec g b) as [[A E]|[A E]]; rewrite E; [ destruct (qmax_spec r b) as [[B F]|[B F]] | destruct (qmax_spec r g) as [[B F]|[B F]] ]; rewrite F;
    (split; [ lra | split; [ lra | split; [ lra |]]]); auto using Qeq_refl. }
  assert (Hn : mn <= r /\ mn <= g /\ mn <= b /\ (mn == r \/ mn == g \/ mn == b)).
  { unfold mn. destruct (qmin_spec g b) as [[A E]|[A E]]; rewrite E; [ destruct (qmin_spec r b) as [[B F]|[B F]] | destruct (qmin_spec r g) as [[B F]|[B F]] ]; rewrite F;
    (split; [ lra | split; [ lra | split; [ lra |]]]); auto using Qeq_refl. }
  clearbody mx mn. unfold hnum. destruct (eqb_spec mx r) as [Er|Er]; [| destruct (eqb_spec mx g) as [Eg|Eg] ].
  - destruct (ltb_spec g b) as [L|L].
    + (* sector 5 *) assert (mn == g) by lra. destruct (ratio (b - g) d Hdp ltac:(lra) ltac:(unfold d; lra)) as (A & B & C).
      assert (Lt : 0 < (b - g) / d) by (apply Qlt_shift_div_l; lra).
      pose proof (opp_ratio g b d ltac:(lra)) as O. split; [ lra |]. split; [ lra |].
      eapply eq3_trans; [ apply s5; lra |]. unfold eq3; cbn [fst snd]. fold d.
      assert (X : d * (6 - ((g - b) / d + 6)) == b - g) by (rewrite O; transitivity (d * ((b - g) / d)); [ ring | exact C ]). rewrite X. repeat split; lra.
    + (* sector 0 *) assert (mn == b) by lra. destruct (ratio (g - b) d Hdp ltac:(lra) ltac:(unfold d; lra)) as (A & B & C).
      split; [ lra |]. split; [ lra |]. eapply eq3_trans; [ apply s0; lra |]. unfold eq3; cbn [fst snd]. fold d.
      assert (X : d * ((g - b) / d + 0) == g - b) by (rewrite Qplus_0_r; exact C). rewrite X. repeat split; lra.
  - destruct (Qlt_le_dec r b) as [L|L].
    + (* sector 2 *) assert (mn == r) by lra. destruct (ratio (b - r) d Hdp ltac:(lra) ltac:(unfold d; lra)) as (A & B & C).
      split; [ lra |]. split; [ lra |]. eapply eq3_trans; [ apply s2; lra |]. unfold eq3; cbn [fst snd]. fold d.
      assert (X : d * ((b - r) / d + 2 - 2) == b - r) by (transitivity (d * ((b - r) / d)); [ ring | exact C ]). rewrite X. repeat split; lra.
    + (* sector 1 *) assert (mn == b) by lra. destruct (ratio (r - b) d Hdp ltac:(lra) ltac:(unfold d; lra)) as (A & B & C).
      pose proof (opp_ratio b r d ltac:(lra)) as O. split; [ lra |]. split; [ lra |]. eapply eq3_trans; [ apply s1; lra |]. unfold eq3; cbn [fst snd]. fold d.
      assert (X : d * (2 - ((b - r) / d + 2)) == r - b) by (rewrite O; transitivity (d * ((r - b) / d)); [ ring | exact C ]). rewrite X. repeat split; lra.
  - destruct (Qlt_le_dec g r) as [L|L].
    + (* sector 4 *) assert (mn == g) by lra. destruct (ratio (r - g) d Hdp ltac:(lra) ltac:(unfold d; lra)) as (A & B & C).
      split; [ lra |]. split; [ lra |]. eapply eq3_trans; [ apply s4; lra |]. unfold eq3; cbn [fst snd]. fold d.
      assert (X : d * ((r - g) / d + 4 - 4) == r - g) by (transitivity (d * ((r - g) / d)); [ ring | exact C ]). rewrite X. repeat split; lra.
    + (* sector 3 *) assert (mn == r) by lra. destruct (ratio (g - r) d Hdp ltac:(lra) ltac:(unfold d; lra)) as (A & B & C).
      pose proof (opp_ratio r g d ltac:(lra)) as O. split; [ lra |]. split; [ lra |]. eapply eq3_trans; [ apply s3; lra |]. unfold eq3; cbn [fst snd]. fold d.
      assert (X : d * (4 - ((r - g) / d + 4)) == g - r) by (rewrite O; transitivity (d * ((g - r) / d)); [ ring | exact C ]). rewrite X. repeat split; lra.
Qed.

Lemma extremes b g r : unit_range b -> unit_range g -> unit_range r ->
  0 <= qmin r (qmin g b) /\ qmax r (qmax g b) <= 1 /\ qmin r (qmin g b) <= b /\ qmin r (qmin g b) <= g /\ qmin r (qmin g b) <= r /\
  b <= qmax r (qmax g b) /\ g <= qmax r (qmax g b) /\ r <= qmax r (qmax g b).
Proof.
  unfold unit_range. intros [? ?] [? ?] [? ?]. unfold qmin, qmax. cases; lra.
Qed.

Theorem roundtrip b g r : unit_range b -> unit_range g -> unit_range r ->
  let '(h, s, l) := hsl_of b g r in (0 <= h /\ h < 360) /\ unit_range s /\ unit_range l /\ eq3 (bgr_of h s l) (b, g, r).
Proof.
  intros Hb Hg Hr. pose proof (extremes b g r Hb Hg Hr) as (X0 & X1 & X2 & X3 & X4 & X5 & X6 & X7). unfold hsl_of.
  pose proof (chans_hnum b g r) as CH. cbv zeta in CH. set (mx := qmax r (qmax g b)) in *. set (mn := qmin r (qmin g b)) in *.
  destruct (eqb_spec mx mn) as [E|E].
  - split; [ lra |]. split; [ unfold unit_range; lra |]. assert (El : (mx + mn) / 2 == mn) by (rewrite E; field).
    split; [ unfold unit_range; rewrite El; lra |]. unfold bgr_of. change (Qeq_bool 0 0) with true. cbv iota.
    unfold eq3; cbn [fst snd]. rewrite El. repeat split; lra.
  - assert (Hlt : mn < mx) by lra. specialize (CH Hlt). destruct CH as (C1 & C2 & C3).
    change (qmax 0 (qmin ((mx - mn) / (1 - qabs (2 * ((mx + mn) / 2) - 1))) 1)) with (sat_of mn mx).
    change (if Qeq_bool mx r then (g - b) / (mx - mn) + (if ltb g b then 6 else 0) else if Qeq_bool mx g then (b - r) / (mx - mn) + 2 else (r - g) / (mx - mn) + 4)
      with (hnum b g r mx (mx - mn)).
    destruct (sat_of_spec mn mx X0 Hlt X1) as (S1 & S2 & S3 & S4 & S5). set (H := hnum b g r mx (mx - mn)) in *. set (s := sat_of mn mx) in *. set (l := (mx + mn) / 2) in *.
    assert (El : 2 * l == mx + mn) by (unfold l; field).
    clearbody H s l mx mn. split; [ lra |]. split; [ unfold unit_range; lra |]. split; [ unfold unit_range; lra |].
    eapply eq3_trans; [ apply bgr_generic; lra |]. eapply eq3_trans; [| exact C3 ]. apply chans_comp; [ rewrite S5; lra | exact S5 | field ].
Qed.

(** 8-bit *)
Lemma round_comp x y : x == y -> round x = round y.
Proof.
  intro E. unfold round. rewrite (ltb_comp x y 0 0 E (Qeq_refl 0)). destruct (ltb y 0); [ f_equal |]; apply Qfloor_comp; rewrite E; reflexivity.
Qed.
Lemma round_int z : (0 <= z)%Z -> round (inject_Z z) = z.
Proof.
  intro Hz. unfold round. destruct (ltb_spec (inject_Z z) 0) as [L|L].
  - change 0 with (inject_Z 0) in L. rewrite <- Zlt_Qlt in L. lia.
  - unfold Qfloor, Qplus, inject_Z. cbn. replace (z * 2 + 1)%Z with (1 + z * 2)%Z by lia. rewrite Z.div_add by lia. reflexivity.
Qed.
Lemma quant_unit8 x v : (0 <= v <= 255)%Z -> x == unit8 v -> quant x = v.
Proof.
  intros Hv E. unfold quant. rewrite (round_comp _ (inject_Z v)).
  - rewrite round_int by lia. unfold sat. destruct (Z.ltb_spec v 0); [ lia |]. destruct (Z.ltb_spec 255 v); lia.
  - rewrite E. unfold unit8. field.
Qed.
Lemma unit8_range v : (0 <= v <= 255)%Z -> unit_range (unit8 v).
Proof.
  intro H. unfold unit8, unit_range. assert (A : 0 <= inject_Z v) by (change 0 with (inject_Z 0); rewrite <- Zle_Qle; lia).
  assert (B : inject_Z v <= 255) by (change 255 with (inject_Z 255); rewrite <- Zle_Qle; lia).
  split; [ apply Qle_shift_div_l; lra | apply Qle_shift_div_r; lra ].
Qed.
Lemma roundtrip8 b g r : (0 <= b <= 255)%Z -> (0 <= g <= 255)%Z -> (0 <= r <= 255)%Z ->
  let '(h, s, l) := getHSLFromBGR b g r in getBGRFromHSL h s l = (b, g, r).
Proof.
  intros Hb Hg Hr. unfold getHSLFromBGR. pose proof (roundtrip (unit8 b) (unit8 g) (unit8 r) (unit8_range b Hb) (unit8_range g Hg) (unit8_range r Hr)) as R.
  destruct (hsl_of (unit8 b) (unit8 g) (unit8 r)) as [[h s] l]. destruct R as (_ & _ & _ & R). unfold getBGRFromHSL.
  destruct (bgr_of h s l) as [[b' g'] r']. destruct R as (A & B & C). cbn [fst snd] in *.
  rewrite (quant_unit8 b' b Hb A), (quant_unit8 g' g Hg B), (quant_unit8 r' r Hr C). reflexivity.
Qed.

(** the other direction *)
Lemma qof_bounds s l : 0 <= s -> s <= 1 -> 0 <= l -> l <= 1 -> let q := qof s l in let p := 2 * l - q in 0 <= p /\ p <= q /\ q <= 1 /\ (0 < s -> 0 < l -> l < 1 -> p < q).
Proof.
  intros ? ? ? ?. cbv zeta. unfold qof. destruct (ltb_spec l (1 # 2)) as [L|L].
  - assert (A : 0 <= l * s) by (apply Qmult_le_0_compat; auto). assert (B : 0 <= l * (1 - s)) by (apply Qmult_le_0_compat; lra).
    assert (B' : l * (1 - s) == l - l * s) by ring. repeat split; try lra.
    intros. assert (0 < l * s) by (apply Qmult_lt_0_compat; lra). lra.
  - assert (A : 0 <= (1 - l) * s) by (apply Qmult_le_0_compat; lra). assert (A' : (1 - l) * s == s - l * s) by ring.
    assert (B : 0 <= (1 - l) * (1 - s)) by (apply Qmult_le_0_compat; lra). assert (B' : (1 - l) * (1 - s) == 1 - l - s + l * s) by ring.
    repeat split; try lra. intros. assert (0 < (1 - l) * s) by (apply Qmult_lt_0_compat; lra). lra.
Qed.
Lemma qof_diff s l : qof s l - (2 * l - qof s l) == s * (1 - qabs (2 * l - 1)).
Proof. unfold qof, qabs. destruct (ltb_spec l (1 # 2)), (ltb_spec (2 * l - 1) 0); try (exfalso; lra); ring. Qed.

Lemma qmax_comp a a' b b' : a == a' -> b == b' -> qmax a b == qmax a' b'.
Proof. intros. unfold qmax. cases; lra. Qed.
Lemma qmin_comp a a' b b' : a == a' -> b == b' -> qmin a b == qmin a' b'.
Proof. intros. unfold qmin. cases; lra. Qed.
Lemma qabs_comp a b : a == b -> qabs a == qabs b.
Proof. intro. unfold qabs. cases; lra. Qed.

(** hue number recovered from the channels of each sector *)
Lemma hnum_comp b b' g g' r r' mx mx' d d' : b == b' -> g == g' -> r == r' -> mx == mx' -> d == d' -> hnum b g r mx d == hnum b' g' r' mx' d'.
Proof.
  intros Eb Eg Er Em Ed. unfold hnum. cases; try (exfalso; lra); solve [ rewrite Eg, Eb, Ed; reflexivity | rewrite Eb, Er, Ed; reflexivity | rewrite Er, Eg, Ed; reflexivity ].
Qed.
Lemma frac d x : 0 < d -> d * x / d == x. Proof. intro. field. lra. Qed.

Ltac absurdq := exfalso; first [ lra | match goal with N : ~ _ == _ |- _ => apply N; lra end ].
Lemma cancel d x : 0 < d -> d * x == d -> x == 1.
Proof. intros Hd E. apply (Qmult_inj_l x 1 d); [ lra |]. rewrite E. ring. Qed.
Lemma bgr_hue p q H c : p < q -> 0 <= H -> H < 6 -> eq3 c (chans p q H) -> let '(b, g, r) := c in
  qmax r (qmax g b) == q /\ qmin r (qmin g b) == p /\ hnum b g r q (q - p) == H.
Proof.
  intros Hd H0 H6 E. destruct c as [[b g] r]. set (d := q - p). assert (Hdp : 0 < d) by (unfold d; lra). assert (Ed : d == q - p) by reflexivity.
  assert (S : exists x y z, eq3 (b, g, r) (x, y, z) /\ qmax z (qmax y x) == q /\ qmin z (qmin y x) == p /\ hnum x y z q d == H).
  2: { destruct S as (x & y & z & (A & B & C) & M1 & M2 & M3). cbn [fst snd] in A, B, C. split; [| split ].
       - rewrite <- M1. apply qmax_comp; auto. now apply qmax_comp.
       - rewrite <- M2. apply qmin_comp; auto. now apply qmin_comp.
       - rewrite <- M3. apply hnum_comp; auto; reflexivity. }
  assert (Fr : forall a x, a == d * x -> a / d == x) by (intros a x ->; field; lra).
  destruct (Qlt_le_dec H 1) as [L1|L1]; [| destruct (Qlt_le_dec H 2) as [L2|L2]; [| destruct (Qlt_le_dec H 3) as [L3|L3]; [| destruct (Qlt_le_dec H 4) as [L4|L4]; [| destruct (Qlt_le_dec H 5) as [L5|L5] ]]]].
  - exists p, (p + d * H), q. split; [ eapply eq3_trans; [ exact E | apply s0; lra ] |]. assert (0 <= d * H) by nra. assert (d * H <= d) by nra.
    split; [ unfold qmax; cases; unfold d in *; lra |]. split; [ unfold qmin; cases; unfold d in *; lra |].
    unfold hnum. cases; try absurdq. rewrite (Fr _ H) by ring. lra.
  - exists p, q, (p + d * (2 - H)). split; [ eapply eq3_trans; [ exact E | apply s1; lra ] |]. assert (0 <= d * (2 - H)) by nra. assert (d * (2 - H) <= d) by nra.
    split; [ unfold qmax; cases; unfold d in *; lra |]. split; [ unfold qmin; cases; unfold d in *; lra |].
    unfold hnum. cases; try absurdq.
    + assert (d * (2 - H) == d) by (unfold d in *; lra). pose proof (cancel d (2 - H) Hdp ltac:(assumption)). rewrite (Fr _ 1) by (unfold d; ring). lra.
    + rewrite (Fr _ (H - 2)) by ring. lra.
  - exists (p + d * (H - 2)), q, p. split; [ eapply eq3_trans; [ exact E | apply s2; lra ] |]. assert (0 <= d * (H - 2)) by nra. assert (d * (H - 2) <= d) by nra.
    split; [ unfold qmax; cases; unfold d in *; lra |]. split; [ unfold qmin; cases; unfold d in *; lra |].
    unfold hnum. cases; try absurdq. rewrite (Fr _ (H - 2)) by ring. lra.
  - exists q, (p + d * (4 - H)), p. split; [ eapply eq3_trans; [ exact E | apply s3; lra ] |]. assert (0 <= d * (4 - H)) by nra. assert (d * (4 - H) <= d) by nra.
    split; [ unfold qmax; cases; unfold d in *; lra |]. split; [ unfold qmin; cases; unfold d in *; lra |].
    unfold hnum. cases; try absurdq.
    + rewrite (Fr _ (H - 4)) by ring. lra.
    + assert (d * (4 - H) == d) by (unfold d in *; lra). pose proof (cancel d (4 - H) Hdp ltac:(assumption)). rewrite (Fr _ 1) by (unfold d; ring). lra.
  - exists q, p, (p + d * (H - 4)). split; [ eapply eq3_trans; [ exact E | apply s4; lra ] |]. assert (0 <= d * (H - 4)) by nra. assert (d * (H - 4) < d) by nra.
    split; [ unfold qmax; cases; unfold d in *; lra |]. split; [ unfold qmin; cases; unfold d in *; lra |].
    unfold hnum. cases; try absurdq. rewrite (Fr _ (H - 4)) by ring. lra.
  - exists (p + d * (6 - H)), p, q. split; [ eapply eq3_trans; [ exact E | apply s5; lra ] |]. assert (0 < d * (6 - H)) by nra. assert (d * (6 - H) <= d) by nra.
    split; [ unfold qmax; cases; unfold d in *; lra |]. split; [ unfold qmin; cases; unfold d in *; lra |].
    unfold hnum. cases; try absurdq. rewrite (Fr _ (H - 6)) by ring. lra.
Qed.

Theorem roundtrip_back h s l : 0 <= h -> h < 360 -> 0 < s -> s <= 1 -> 0 < l -> l < 1 ->
  let '(b, g, r) := bgr_of h s l in eq3 (hsl_of b g r) (h, s, l).
Proof.
  intros H0 H1 S0 S1 L0 L1. pose proof (bgr_generic h s l S0 L0 L1) as G. destruct (bgr_of h s l) as [[b g] r].
  destruct (qof_bounds s l ltac:(lra) S1 ltac:(lra) ltac:(lra)) as (B1 & B2 & B3 & B4). specialize (B4 S0 L0 L1).
  pose proof (qof_diff s l) as D. set (q := qof s l) in *. set (p := 2 * l - q) in *.
  assert (Hh : 0 <= h / 60 /\ h / 60 < 6) by (split; [ apply Qle_shift_div_l; lra | apply Qlt_shift_div_r; lra ]).
  pose proof (bgr_hue p q (h / 60) (b, g, r) B4 (proj1 Hh) (proj2 Hh) G) as (M1 & M2 & M3). unfold hsl_of.
  set (mx := qmax r (qmax g b)) in *. set (mn := qmin r (qmin g b)) in *.
  assert (El : (mx + mn) / 2 == l) by (rewrite M1, M2; unfold p; field).
  destruct (eqb_spec mx mn) as [E|E]; [ exfalso; lra |]. unfold eq3; cbn [fst snd]. split; [| split ]; auto.
  - change (if Qeq_bool mx r then (g - b) / (mx - mn) + (if ltb g b then 6 else 0) else if Qeq_bool mx g then (b - r) / (mx - mn) + 2 else (r - g) / (mx - mn) + 4)
      with (hnum b g r mx (mx - mn)).
    assert (Eh : hnum b g r mx (mx - mn) == h / 60).
    { rewrite <- M3. apply hnum_comp; try reflexivity; auto. rewrite M1, M2. reflexivity. }
    rewrite Eh. field.
  - assert (Ec : 1 - qabs (2 * ((mx + mn) / 2) - 1) == 1 - qabs (2 * l - 1)).
    { assert (X : 2 * ((mx + mn) / 2) - 1 == 2 * l - 1) by (rewrite El; reflexivity). now rewrite (qabs_comp _ _ X). }
    assert (Cp : 0 < 1 - qabs (2 * l - 1)) by (unfold qabs; cases; lra).
    assert (Es : (mx - mn) / (1 - qabs (2 * ((mx + mn) / 2) - 1)) == s).
    { rewrite Ec, M1, M2, D. field. lra. }
    rewrite (qmax_comp 0 0 _ (qmin s 1) (Qeq_refl 0) (qmin_comp _ s 1 1 Es (Qeq_refl 1))). unfold qmax, qmin. cases; lra.
Qed.

Lemma chans_bounds p q H : p <= q -> 0 <= H -> H <= 6 -> let '(b, g, r) := chans p q H in (p <= b /\ b <= q) /\ (p <= g /\ g <= q) /\ (p <= r /\ r <= q).
Proof.
  intros Hpq H0 H6. unfold chans.
  assert (G : forall t, - (1 # 3) <= t -> t <= 4 # 3 -> p <= h2rgb p q t /\ h2rgb p q t <= q).
  { intros t A B. destruct (Qlt_le_dec t 0); [ rewrite h_neg by lra; lra |].
    destruct (Qlt_le_dec t (1 # 6)); [ rewrite h_up by lra; nra |].
    destruct (Qlt_le_dec t (1 # 2)); [ rewrite h_top by lra; lra |].
    destruct (Qlt_le_dec t (2 # 3)); [ rewrite h_down by lra; nra |].
    destruct (Qlt_le_dec t 1); [ rewrite h_bottom by lra; lra |].
    destruct (Qlt_le_dec t (7 # 6)); [ rewrite h_wrap by lra; nra |]. rewrite h_wrap_top by lra. lra. }
  split; [| split ]; apply G; lra.
Qed.
Theorem bgr_in_range h s l : 0 <= h -> h < 360 -> unit_range s -> unit_range l ->
  let '(b, g, r) := bgr_of h s l in unit_range b /\ unit_range g /\ unit_range r.
Proof.
  unfold unit_range. intros H0 H1 [S0 S1] [L0 L1].
  destruct (eqb_spec s 0) as [E|E]; [ unfold bgr_of; destruct (eqb_spec s 0); [ lra | contradiction ] |].
  destruct (eqb_spec l 0) as [F|F]; [ unfold bgr_of; destruct (eqb_spec s 0); [ lra |]; destruct (eqb_spec l 0); [ lra | contradiction ] |].
  destruct (eqb_spec l 1) as [K|K]; [ unfold bgr_of; destruct (eqb_spec s 0); [ lra |]; destruct (eqb_spec l 0); [ lra |]; destruct (eqb_spec l 1); [ lra | contradiction ] |].
  pose proof (bgr_generic h s l ltac:(lra) ltac:(lra) ltac:(lra)) as G. destruct (qof_bounds s l S0 S1 L0 L1) as (B1 & B2 & B3 & _).
  assert (Hh : h / 60 == h * (1 # 60)) by field.
  pose proof (chans_bounds (2 * l - qof s l) (qof s l) (h / 60) B2 ltac:(rewrite Hh; lra) ltac:(rewrite Hh; lra)) as C.
  destruct (bgr_of h s l) as [[b g] r]. destruct (chans _ _ _) as [[b' g'] r']. destruct G as (E1 & E2 & E3). cbn [fst snd] in *.
  rewrite E1, E2, E3. lra.
Qed.

Lemma quant_byte x : (0 <= quant x <= 255)%Z.
Proof. unfold quant, sat. destruct (Z.ltb_spec (round (x * 255)) 0); [ lia |]. destruct (Z.ltb_spec 255 (round (x * 255))); lia. Qed.
Lemma bytes_in_range h s l : let '(b, g, r) := getBGRFromHSL h s l in (0 <= b <= 255)%Z /\ (0 <= g <= 255)%Z /\ (0 <= r <= 255)%Z.
Proof. unfold getBGRFromHSL. destruct (bgr_of h s l) as [[b g] r]. repeat split; apply quant_byte. Qed.
