From Coq Require Import FinFun ZArith QArith Qround Qminmax Qabs List Bool Lia Lqa.
From Verif Require Import Model.Pbas Model.Subsense Spec.Subsense.
Import ListNotations.
Open Scope Q_scope.

Lemma Qltb_true a b : Qltb a b = true <-> a < b.
Proof.
  unfold Qltb. rewrite negb_true_iff. split; intros H.
  - destruct (Qlt_le_dec a b) as [L|L]; auto. apply Qle_bool_iff in L. congruence.
  - destruct (Qle_bool b a) eqn:E; auto. apply Qle_bool_iff in E. lra.
Qed.
Lemma Qltb_false a b : Qltb a b = false <-> b <= a.
Proof.
  unfold Qltb. rewrite negb_false_iff. apply Qle_bool_iff.
Qed.
Ltac qcase := repeat match goal with
  | |- context [if Qltb ?a ?b then _ else _] => let E := fresh "E" in destruct (Qltb a b) eqn:E; [ apply Qltb_true in E | apply Qltb_false in E ]
  end.

Lemma inject_le a b : (a <= b)%Z -> inject_Z a <= inject_Z b.
Proof. intros H. rewrite <- Zle_Qle. auto. Qed.
Lemma inject_lt a b : (a < b)%Z -> inject_Z a < inject_Z b.
Proof. intros H. rewrite <- Zlt_Qlt. auto. Qed.

(* ------------------------------------------------------------------ caps *)

Lemma clamp_in low up e : low <= up -> low <= clamp low up e <= up.
Proof. intros H. destruct e; cbn [clamp]; [ lra | | lra ]. qcase; lra. Qed.

Lemma next_rate_in g p fg lo hi : low_cap g <= up_cap g -> low_cap g <= next_rate g p fg lo hi <= up_cap g.
Proof. intros H. apply clamp_in. auto. Qed.

Lemma shiftr_range a k : (0 <= a)%Z -> (0 <= k)%Z -> (0 <= Z.shiftr a k <= a)%Z.
Proof.
  intros A K. rewrite Z.shiftr_div_pow2 by auto. assert (0 < 2 ^ k)%Z by (apply Z.pow_pos_nonneg; lia). split.
  - apply Z.div_pos; lia.
  - apply Z.div_le_upper_bound; nia.
Qed.
Lemma shiftr_le a b k : (a <= b)%Z -> (0 <= k)%Z -> (Z.shiftr a k <= Z.shiftr b k)%Z.
Proof. intros A K. rewrite !Z.shiftr_div_pow2 by auto. apply Z.div_le_mono; auto. apply Z.pow_pos_nonneg; lia. Qed.

Lemma next_caps_in c r low up : 0 <= r -> next_caps c r = Some (low, up) -> 1 <= low /\ low <= up /\ low <= 2 /\ up <= 256.
Proof.
  intros R. unfold next_caps.
  assert (K0 : (0 <= Qfloor (r / 2))%Z) by (change 0%Z with (Qfloor 0); apply Qfloor_resp_le, Qle_shift_div_l; lra).
  revert K0. generalize (Qfloor (r / 2)). intros k K0. destruct (Qle_bool _ r).
  - destruct (32 <=? k)%Z; [ discriminate | ]. intros [= <- <-].
    pose proof (shiftr_range FEEDBACK_T_LOWER _ ltac:(unfold FEEDBACK_T_LOWER; lia) K0).
    pose proof (shiftr_range FEEDBACK_T_UPPER _ ltac:(unfold FEEDBACK_T_UPPER; lia) K0).
    pose proof (shiftr_le FEEDBACK_T_LOWER FEEDBACK_T_UPPER _ ltac:(unfold FEEDBACK_T_LOWER, FEEDBACK_T_UPPER; lia) K0).
    unfold FEEDBACK_T_LOWER, FEEDBACK_T_UPPER in *.
    repeat split; apply (inject_le _ _); lia.
  - intros [= <- <-]. repeat split; apply (inject_le _ _); unfold FEEDBACK_T_LOWER, FEEDBACK_T_UPPER; lia.
Qed.

Lemma next_caps_some c r : 0 <= r -> r < 64 -> next_caps c r <> None.
Proof.
  intros R0 R. unfold next_caps. destruct (Qle_bool _ r); [ | discriminate ].
  destruct (32 <=? Qfloor (r / 2))%Z eqn:K; [ | discriminate ]. apply Z.leb_le in K. exfalso.
  pose proof (Qfloor_le (r / 2)) as F. apply inject_le in K. change (inject_Z 32) with 32 in K.
  assert (r / 2 < 32) by (apply Qlt_shift_div_r; lra). lra.
Qed.
Lemma next_caps_none c r : inject_Z (min_color c / 2 / 2) <= r -> 64 <= r -> next_caps c r = None.
Proof.
  intros H R. unfold next_caps. apply Qle_bool_iff in H. rewrite H.
  assert (K : (32 <= Qfloor (r / 2))%Z) by (change 32%Z with (Qfloor 32); apply Qfloor_resp_le, Qle_shift_div_l; lra).
  apply Z.leb_le in K. rewrite K. reflexivity.
Qed.

(* ------------------------------------------------------------------ averages *)

Lemma factor_in n w a : (1 <= n)%Z -> (0 <= w)%Z -> factor n w = Some a -> 0 < a /\ a <= 1 /\ a == 1 / inject_Z (Z.min n w).
Proof.
  intros N W. unfold factor. destruct (Z.min n w =? 0)%Z eqn:E; [ discriminate | ]. apply Z.eqb_neq in E. intros I. inversion I; subst; clear I.
  assert (M : 1 <= inject_Z (Z.min n w)) by (apply (inject_le 1); lia).
  split; [ apply Qlt_shift_div_l; lra | split; [ apply Qle_shift_div_r; lra | reflexivity ] ].
Qed.
Lemma factor_some n w : (1 <= n)%Z -> (1 <= w)%Z -> exists a, factor n w = Some a.
Proof. intros N W. unfold factor. destruct (Z.min n w =? 0)%Z eqn:E; [ apply Z.eqb_eq in E; lia | eauto ]. Qed.

Lemma roll_unit m a x : unit m -> unit a -> unit x -> unit (roll m a x).
Proof.
  unfold unit, roll. intros M A X. rewrite Qred_correct. split.
  - assert (0 <= m * (1 - a)) by (apply Qmult_le_0_compat; lra). assert (0 <= x * a) by (apply Qmult_le_0_compat; lra). lra.
  - assert (m * (1 - a) <= 1 * (1 - a)) by (apply Qmult_le_compat_r; lra). assert (x * a <= 1 * a) by (apply Qmult_le_compat_r; lra). lra.
Qed.

Definition good_match (c : config) (m : sample -> option (Z * Z)) : Prop :=
  forall s sum desc, sample_ok c s -> m s = Some (sum, desc) -> (0 <= sum /\ 0 <= desc)%Z.

Lemma scan_range c m req : good_match c m -> forall l good ls ld g a b, Forall (sample_ok c) l -> (0 <= ls)%Z -> (0 <= ld)%Z ->
  scan m req l good ls ld = (g, (a, b)) -> (0 <= a <= ls /\ 0 <= b <= ld)%Z.
Proof.
  intros Hm. induction l as [|s l IH]; intros good ls ld g a b Hl H1 H2; cbn [scan].
  - intros E. inversion E; subst. lia.
  - inversion Hl; subst. destruct (Nat.ltb good req); [ | intros E; inversion E; subst; lia ].
    destruct (m s) as [[sum desc]|] eqn:M.
    + destruct (Hm _ _ _ H3 M). intros E. apply IH in E; auto; lia.
    + intros E. apply IH in E; auto.
Qed.

Lemma match_channels_pos sc : forall s a b x y, Forall channel_ok s -> (0 <= a)%Z -> (0 <= b)%Z ->
  match_channels sc s a b = Some (x, y) -> (0 <= x /\ 0 <= y)%Z.
Proof.
  induction s as [|[col desc] s IH]; intros a b x y Hs A B; cbn [match_channels].
  - intros E. inversion E; subst. auto.
  - inversion Hs as [|? ? [C1 C2] Hs']; subst. cbn [fst snd] in *.
    destruct ((sc <? col) || _)%Z; [ discriminate | ]. apply IH; auto; [ | lia ].
    assert (0 <= desc / 2)%Z by (apply Z.div_pos; lia). change (255 / 16)%Z with 15%Z. lia.
Qed.

Lemma match_good c p : good_match c (match_sample c p).
Proof.
  intros s sum desc [L Hs]. unfold match_sample. destruct (grey c) eqn:G.
  - unfold match_grey. destruct s as [|[col de] s]; [ unfold channels in L; rewrite G in L; discriminate | ]. cbn [hd].
    inversion Hs as [|? ? [C1 C2] _]; subst. cbn [fst snd] in *.
    destruct (_ || _ || _)%bool; [ discriminate | ]. intros E. inversion E; subst.
    assert (0 <= desc / 4)%Z by (apply Z.div_pos; lia). change (255 / 16)%Z with 15%Z. lia.
  - unfold match_colour. destruct (match_channels _ s 0 0) as [[x y]|] eqn:M; [ | discriminate ].
    apply match_channels_pos in M; auto; try lia. destruct (_ || _)%bool; [ discriminate | ]. intros E. inversion E; subst. auto.
Qed.

Lemma min_distance_unit c good a b : (0 <= a <= 255 * channels c)%Z -> (0 <= b <= 16 * channels c)%Z -> unit (min_distance c good a b).
Proof.
  intros A B. unfold min_distance, unit.
  assert (C : (1 <= channels c)%Z) by (unfold channels; destruct (grey c); lia).
  set (x := inject_Z a / inject_Z (255 * channels c)). set (y := inject_Z b / inject_Z (16 * channels c)).
  assert (X : 0 <= x <= 1).
  { assert (P : 0 < inject_Z (255 * channels c)) by (apply (inject_lt 0); lia). unfold x. split.
    - apply Qle_shift_div_l; auto. rewrite Qmult_0_l. apply (inject_le 0); lia.
    - apply Qle_shift_div_r; auto. rewrite Qmult_1_l. apply inject_le; lia. }
  assert (Y : 0 <= y <= 1).
  { assert (P : 0 < inject_Z (16 * channels c)) by (apply (inject_lt 0); lia). unfold y. split.
    - apply Qle_shift_div_l; auto. rewrite Qmult_0_l. apply (inject_le 0); lia.
    - apply Qle_shift_div_r; auto. rewrite Qmult_1_l. apply inject_le; lia. }
  assert (D : 0 <= (x + y) / 2 <= 1) by (split; [ apply Qle_shift_div_l | apply Qle_shift_div_r ]; lra).
  clearbody x y. destruct (Nat.ltb good (required c)) eqn:L; [ | auto ]. apply Nat.ltb_lt in L.
  split; [ | apply Q.le_min_l ]. apply Q.min_glb; [ lra | ].
  assert (0 <= inject_Z (Z.of_nat (required c - good)) / inject_Z (Z.of_nat (required c))).
  { apply Qle_shift_div_l; [ apply (inject_lt 0); lia | ]. rewrite Qmult_0_l. apply (inject_le 0); lia. }
  lra.
Qed.

(* ------------------------------------------------------------------ modulator and radius *)

Lemma next_modulator_in p unst hi : FEEDBACK_V_DECR <= modulator p ->
  FEEDBACK_V_DECR <= next_modulator p unst hi <= modulator p + 1 /\ modulator p - FEEDBACK_V_DECR <= next_modulator p unst hi.
Proof.
  unfold next_modulator, FEEDBACK_V_DECR, FEEDBACK_V_INCR. intros H.
  destruct (Qltb UNSTABLE_REG_RATIO_MIN hi && blinks p); [ lra | ].
  destruct (last_final p); [ | destruct unst ]; qcase; try lra; try (change ((1 # 10) / 4) with (1 # 40) in *; lra);
    try (change ((1 # 10) / 2) with (1 # 20) in *; lra).
Qed.

Lemma next_radius_in p v lo : FEEDBACK_V_DECR <= v -> 1 <= radius p -> 0 <= lo <= 1 ->
  1 <= next_radius p v lo /\ (next_radius p v lo <= radius p \/ next_radius p v lo <= 9 + FEEDBACK_R_VAR * (v - FEEDBACK_V_DECR)).
Proof.
  unfold next_radius, FEEDBACK_V_DECR, FEEDBACK_R_VAR. intros V R L. destruct (Qltb _ _) eqn:E; [ apply Qltb_true in E | apply Qltb_false in E ].
  - assert ((1 + lo * 2) * (1 + lo * 2) <= 9).
    { assert ((1 + lo * 2) * (1 + lo * 2) <= 3 * (1 + lo * 2)) by (apply Qmult_le_compat_r; lra). lra. }
    split; [ lra | right; lra ].
  - assert (0 < (1 # 100) / v) by (apply Qlt_shift_div_l; lra). qcase; split; lra.
Qed.

(* ------------------------------------------------------------------ the invariant *)

Record inv (n : Z) (p : pixel) (g : global) : Prop := {
  i_frame : frame_no g = n;
  i_caps : 1 <= low_cap g /\ low_cap g <= up_cap g /\ up_cap g <= 512;
  i_rate : 1 <= rate p <= 512;
  i_mod : FEEDBACK_V_DECR <= modulator p <= 10 + inject_Z n;
  i_radius : 1 <= radius p <= 9 + FEEDBACK_R_VAR * (10 + inject_Z n - FEEDBACK_V_DECR);
  i_avg : Forall unit [min_lt p; min_st p; raw_lt p; raw_st p; final_lt p; final_st p] }.

Lemma inv_start c : inv 0 (start c) (start_global c).
Proof.
  unfold start, start_global. split; cbn -[inject_Z].
  - reflexivity.
  - destruct (scaling c); repeat split; lra.
  - destruct (scaling c); split; lra.
  - unfold FEEDBACK_V_DECR. change (inject_Z 0) with 0. lra.
  - unfold FEEDBACK_V_DECR, FEEDBACK_R_VAR. change (inject_Z 0) with 0. lra.
  - repeat constructor; cbn; lra.
Qed.

Lemma pixel_step_inv c n g al as_ i p fg p' : (0 <= n)%Z -> inv n p g -> 0 < al <= 1 -> 0 < as_ <= 1 -> input_ok c i ->
  pixel_step c g al as_ i p = Done (fg, p') ->
  low_cap g <= rate p' <= up_cap g /\
  FEEDBACK_V_DECR <= modulator p' <= 10 + inject_Z (n + 1) /\
  1 <= radius p' <= 9 + FEEDBACK_R_VAR * (10 + inject_Z (n + 1) - FEEDBACK_V_DECR) /\
  Forall unit [min_lt p'; min_st p'; raw_lt p'; raw_st p'; final_lt p'; final_st p'].
Proof.
  intros N I A B [S _]. unfold pixel_step. destruct (64 <=? shift_amount p)%Z; [ discriminate | ].
  destruct (scan _ _ _ _ _ _) as [good [ls ld]] eqn:Sc. intros E. inversion E; subst; clear E. cbn [rate modulator radius min_lt min_st raw_lt raw_st final_lt final_st].
  destruct I as [If Ic Ir Im IR Ia].
  inversion Ia as [|? ? U1 I1]; subst. inversion I1 as [|? ? U2 I2]; subst. inversion I2 as [|? ? U3 I3]; subst.
  inversion I3 as [|? ? U4 I4]; subst. inversion I4 as [|? ? U5 I5]; subst. inversion I5 as [|? ? U6 I6]; subst.
  assert (UA : unit al) by (unfold unit; lra). assert (UB : unit as_) by (unfold unit; lra).
  assert (C1 : (1 <= channels c)%Z) by (unfold channels; destruct (grey c); lia).
  assert (D : unit (min_distance c good ls ld)).
  { apply min_distance_unit; eapply (scan_range c) in Sc; try (apply match_good || auto || lia). }
  set (mlt := roll (min_lt p) al (min_distance c good ls ld)). set (mst := roll (min_st p) as_ (min_distance c good ls ld)).
  assert (M1 : unit mlt) by (apply roll_unit; auto). assert (M2 : unit mst) by (apply roll_unit; auto).
  assert (L : 0 <= Qmin mlt mst <= 1).
  { destruct M1, M2. split; [ apply Q.min_glb; auto | eapply Qle_trans; [ apply Q.le_min_l | auto ] ]. }
  set (unst := Qltb UNSTABLE_REG_RDIST_MIN (radius p) || _ || _).
  pose proof (next_modulator_in p unst (Qmax mlt mst) (proj1 Im)) as [V _].
  rewrite inject_Z_plus. change (inject_Z 1) with 1.
  split; [ rewrite Qred_correct; apply next_rate_in; apply Ic | ].
  split; [ rewrite Qred_correct; lra | ].
  split.
  - rewrite Qred_correct. assert (V' : FEEDBACK_V_DECR <= Qred (next_modulator p unst (Qmax mlt mst))) by (rewrite Qred_correct; lra).
    pose proof (next_radius_in p _ _ V' (proj1 IR) L) as [R1 R2]. split; auto.
    destruct R2 as [R2|R2].
    + eapply Qle_trans; [ apply R2 | ]. unfold FEEDBACK_R_VAR, FEEDBACK_V_DECR in *. lra.
    + eapply Qle_trans; [ apply R2 | ]. rewrite Qred_correct. unfold FEEDBACK_R_VAR, FEEDBACK_V_DECR in *. lra.
  - assert (S1 : unit (if Nat.ltb good (required c) then 1 else 0)) by (unfold unit; destruct (Nat.ltb good (required c)); lra).
    assert (F1 : unit (if final i then 1 else 0)) by (unfold unit; destruct (final i); lra).
    repeat constructor; auto; try apply roll_unit; auto.
Qed.

Lemma global_step_inv c r g reset g' : 0 <= r -> 1 <= low_cap g /\ low_cap g <= up_cap g /\ up_cap g <= 512 ->
  global_step c r g = Done (reset, g') -> frame_no g' = frame_no g /\ 1 <= low_cap g' /\ low_cap g' <= up_cap g' /\ up_cap g' <= 512.
Proof.
  intros R G. unfold global_step. destruct (scaling c); [ | intros E; inversion E; subst; auto ].
  destruct (if auto_reset g then _ else _) as [[auto since] cool]. destruct (next_caps c r) as [[low up]|] eqn:E; [ | discriminate ].
  intros I. inversion I; subst. cbn. apply next_caps_in in E; auto. split; auto. lra.
Qed.

Lemma step_inv c i n p g fg p' g' : config_ok c -> input_ok c i -> (0 <= n)%Z -> inv n p g ->
  step c i (p, g) = Done (fg, (p', g')) -> inv (n + 1) p' g'.
Proof.
  intros (K1 & K2 & K3) Hi N I. unfold step. pose proof (i_frame _ _ _ I) as F.
  destruct (factor (frame_no g + 1) (window c)) as [al|] eqn:A; [ | discriminate ].
  destruct (factor (frame_no g + 1) (window c / 4)) as [as_|] eqn:B; [ | discriminate ].
  assert (W4 : (0 <= window c / 4)%Z) by (apply Z.div_pos; lia).
  apply factor_in in A; [ | lia | auto ]. apply factor_in in B; [ | lia | auto ].
  set (g1 := {| frame_no := frame_no g + 1; low_cap := _ |}).
  assert (I1 : inv n p {| frame_no := n; low_cap := low_cap g1; up_cap := up_cap g1; auto_reset := auto_reset g1; since_reset := since_reset g1; cooldown := cooldown g1 |}).
  { destruct I. split; auto. }
  destruct (pixel_step c g1 al as_ i p) as [[fg1 p1]|] eqn:P; [ | discriminate ].
  assert (P' : pixel_step c {| frame_no := n; low_cap := low_cap g1; up_cap := up_cap g1; auto_reset := auto_reset g1; since_reset := since_reset g1; cooldown := cooldown g1 |} al as_ i p = Done (fg1, p1)).
  { rewrite <- P. unfold pixel_step, next_rate. reflexivity. }
  apply (pixel_step_inv c n) in P'; auto; try tauto. cbn [low_cap up_cap] in P'.
  destruct (global_step c (diff_ratio i) g1) as [[reset g2]|] eqn:G; [ | discriminate ].
  intros E. inversion E; subst; clear E.
  destruct (i_caps _ _ _ I) as (C1 & C2 & C3).
  assert (GS : 1 <= low_cap g1 /\ low_cap g1 <= up_cap g1 /\ up_cap g1 <= 512) by (cbn; auto).
  apply global_step_inv in G; [ | apply Hi | auto ]. destruct G as (G0 & G1).
  destruct P' as (PT & PV & PR & PA). cbn [low_cap up_cap g1] in PT. split; cbn [rate modulator radius min_lt min_st raw_lt raw_st final_lt final_st]; auto.
  destruct reset; lra.
Qed.

Lemma play_app c l l' : forall s, play c (l ++ l') s = match play c l s with Done s' => play c l' s' | Fault f => Fault f end.
Proof.
  induction l as [|i l IH]; intros s; cbn [play app]; [ reflexivity | ]. destruct (step c i s) as [[fg s']|]; [ apply IH | reflexivity ].
Qed.

Lemma play_inv c : config_ok c -> forall frames n p g p' g', Forall (input_ok c) frames -> (0 <= n)%Z -> inv n p g ->
  play c frames (p, g) = Done (p', g') -> inv (n + Z.of_nat (length frames)) p' g'.
Proof.
  intros K. induction frames as [|i is IH]; intros n p g p' g' F N I; cbn [play length].
  - intros E. inversion E; subst. replace (n + Z.of_nat 0)%Z with n by lia. auto.
  - inversion F; subst. destruct (step c i (p, g)) as [[fg [p1 g1]]|] eqn:St; [ | discriminate ].
    intros E. apply IH with (n := (n + 1)%Z) in E; auto; [ | lia | eapply step_inv; eauto ].
    replace (n + Z.of_nat (S (length is)))%Z with (n + 1 + Z.of_nat (length is))%Z by lia. auto.
Qed.

(* faults *)
Lemma shift_fault n p g : inv n p g -> (64 <= shift_amount p)%Z -> (5441 <= n)%Z.
Proof.
  intros I H. unfold shift_amount in H. pose proof (Qfloor_le (radius p + (1 # 2))) as F. apply inject_le in H. change (inject_Z 64) with 64 in H.
  pose proof (i_radius _ _ _ I) as [_ R]. unfold FEEDBACK_R_VAR, FEEDBACK_V_DECR in R.
  assert (L : inject_Z 5440 < inject_Z n) by (change (inject_Z 5440) with 5440; lra). rewrite <- Zlt_Qlt in L. lia.
Qed.

Lemma pixel_step_fault c g al as_ i p f : pixel_step c g al as_ i p = Fault f -> f = Shift64 /\ (64 <= shift_amount p)%Z.
Proof.
  unfold pixel_step. destruct (64 <=? shift_amount p)%Z eqn:E; [ intros H; inversion H; apply Z.leb_le in E; auto | ].
  destruct (scan _ _ _ _ _ _) as [good [ls ld]]. discriminate.
Qed.
Lemma global_step_fault c r g f : 0 <= r -> global_step c r g = Fault f -> f = Shift32 /\ scaling c = true /\ 64 <= r.
Proof.
  intros R. unfold global_step. destruct (scaling c); [ | discriminate ].
  destruct (if auto_reset g then _ else _) as [[auto since] cool]. destruct (next_caps c r) as [[low up]|] eqn:E; [ discriminate | ].
  intros H. inversion H. split; auto. split; auto. destruct (Qlt_le_dec r 64); auto. exfalso. eapply next_caps_some; eauto.
Qed.

Lemma play_fault c : config_ok c -> forall frames n p g f, Forall (input_ok c) frames -> (0 <= n)%Z -> inv n p g ->
  play c frames (p, g) = Fault f ->
  (f = NoFrame /\ (window c < 4)%Z) \/ (f = Shift32 /\ scaling c = true /\ Exists (fun i => 64 <= diff_ratio i) frames) \/
  (f = Shift64 /\ (5441 < n + Z.of_nat (length frames))%Z).
Proof.
  intros K. pose proof K as (K1 & K2 & K3). induction frames as [|i is IH]; intros n p g f F N I; cbn [play length]; [ discriminate | ].
  inversion F; subst. destruct (step c i (p, g)) as [[fg [p1 g1]]|f'] eqn:S.
  - intros E. apply IH with (n := (n + 1)%Z) in E; auto; [ | lia | eapply step_inv; eauto ].
    destruct E as [E|[(E1 & E2 & E3)|(E1 & E2)]]; [ auto | right; left; auto | right; right; split; auto; lia ].
  - intros E. inversion E; subst; clear E. revert S. unfold step. pose proof (i_frame _ _ _ I) as Fr.
    destruct (factor (frame_no g + 1) (window c)) as [al|] eqn:A.
    2:{ intros E; inversion E; left; split; auto. unfold factor in A. destruct (Z.min _ _ =? 0)%Z eqn:M; [ apply Z.eqb_eq in M; lia | discriminate ]. }
    destruct (factor (frame_no g + 1) (window c / 4)) as [as_|] eqn:B.
    2:{ intros E; inversion E; left; split; auto. unfold factor in B. destruct (Z.min _ _ =? 0)%Z eqn:M; [ apply Z.eqb_eq in M | discriminate ].
        assert (window c / 4 = 0)%Z by lia. apply Z.div_small_iff in H; lia. }
    destruct (pixel_step _ _ al as_ i p) as [[fg1 p1]|f'] eqn:P.
    + destruct (global_step _ _ _) as [[r g2]|f'] eqn:G; [ discriminate | ]. intros E. inversion E; subst.
      apply global_step_fault in G; [ | apply H1 ]. right. left. destruct G as (G1 & G2 & G3). auto.
    + intros E. inversion E; subst. apply pixel_step_fault in P. destruct P as [P1 P2]. right. right. split; auto.
      pose proof (shift_fault _ _ _ I P2). lia.
Qed.

Lemma no_window c frames : (0 <= window c < 4)%Z -> frames <> [] -> play c frames (start c, start_global c) = Fault NoFrame.
Proof.
  intros W H. destruct frames as [|i is]; [ congruence | ]. cbn [play]. unfold step.
  assert (B : factor (frame_no (start_global c) + 1) (window c / 4) = None).
  { unfold factor. rewrite (Z.div_small (window c) 4) by lia. reflexivity. }
  rewrite B. destruct (factor _ (window c)); reflexivity.
Qed.

(* ------------------------------------------------------------------ decisions *)

Definition matches (m : sample -> option (Z * Z)) (l : list sample) : nat := length (filter (fun s => match m s with Some _ => true | None => false end) l).

Lemma scan_count m req : forall l good ls ld, (good <= req)%nat ->
  Nat.ltb (fst (scan m req l good ls ld)) req = Nat.ltb (good + matches m l) req.
Proof.
  induction l as [|s l IH]; intros good ls ld H; cbn [scan].
  - cbn. rewrite Nat.add_0_r. reflexivity.
  - destruct (Nat.ltb good req) eqn:L.
    + apply Nat.ltb_lt in L. unfold matches. cbn [filter]. destruct (m s) as [[a b]|].
      * rewrite IH by lia. cbn [length]. f_equal. unfold matches. lia.
      * rewrite IH by lia. reflexivity.
    + apply Nat.ltb_ge in L. cbn [fst]. symmetry. destruct (Nat.ltb_spec good req); [ lia | ]. apply Nat.ltb_ge. lia.
Qed.

Lemma pixel_step_fg c g al as_ i p fg p' : pixel_step c g al as_ i p = Done (fg, p') ->
  fg = Nat.ltb (matches (match_sample c p) (samples i)) (required c).
Proof.
  unfold pixel_step. destruct (64 <=? _)%Z; [ discriminate | ].
  pose proof (scan_count (match_sample c p) (required c) (samples i) 0 (255 * channels c) (16 * channels c) ltac:(lia)) as S.
  destruct (scan _ _ _ _ _ _) as [good [ls ld]]. cbn [fst] in S. intros E. inversion E; subst. auto.
Qed.

Lemma step_fg c i p g fg s' : step c i (p, g) = Done (fg, s') -> fg = Nat.ltb (matches (match_sample c p) (samples i)) (required c).
Proof.
  unfold step. destruct (factor _ _) as [al|]; [ | discriminate ]. destruct (factor _ _) as [as_|]; [ | discriminate ].
  destruct (pixel_step _ _ _ _ _ _) as [[fg1 p1]|] eqn:P; [ | discriminate ]. destruct (global_step _ _ _) as [[r g2]|]; [ | discriminate ].
  intros E. inversion E; subst. eapply pixel_step_fg; eauto.
Qed.

Lemma div_mono_nonneg a b k : (a <= b)%Z -> (0 < k)%Z -> (a / k <= b / k)%Z.
Proof. intros. apply Z.div_le_mono; auto. Qed.

Lemma match_channels_closer sc : forall s s' a b a' b' x y, closer s s' -> (a <= a')%Z -> (b <= b')%Z ->
  match_channels sc s' a' b' = Some (x, y) -> exists x' y', match_channels sc s a b = Some (x', y') /\ (x' <= x /\ y' <= y)%Z.
Proof.
  induction s as [|[c1 d1] s IH]; intros s' a b a' b' x y H A B.
  - inversion H; subst. cbn. intros E. inversion E; subst. eauto.
  - inversion H as [|? [c2 d2] ? s2 [H1 H2] H3]; subst. cbn [fst snd] in *. cbn [match_channels].
    change (255 / 16)%Z with 15%Z. pose proof (div_mono_nonneg d1 d2 2 H2 ltac:(lia)).
    destruct ((sc <? c2) || (sc <? Z.min (d2 / 2 * 15 + c2) 255))%Z eqn:E2; [ discriminate | ].
    apply orb_false_elim in E2. destruct E2 as [E2 E3]. apply Z.ltb_ge in E2. apply Z.ltb_ge in E3.
    intros E. replace ((sc <? c1) || (sc <? Z.min (d1 / 2 * 15 + c1) 255))%Z with false.
    + eapply IH; [ eauto | | | eauto ]; lia.
    + symmetry. apply orb_false_intro; apply Z.ltb_ge; lia.
Qed.

Lemma match_closer c p s s' : closer s s' -> match_sample c p s' <> None -> match_sample c p s <> None.
Proof.
  intros H. unfold match_sample. destruct (grey c).
  - unfold match_grey. assert (C : (fst (hd (0, 0) s) <= fst (hd (0, 0) s') /\ snd (hd (0, 0) s) <= snd (hd (0, 0) s'))%Z).
    { destruct H; cbn; [ lia | auto ]. }
    destruct (hd _ s) as [c1 d1], (hd _ s') as [c2 d2]. cbn [fst snd] in C. change (255 / 16)%Z with 15%Z.
    pose proof (div_mono_nonneg d1 d2 4 ltac:(lia) ltac:(lia)).
    destruct (_ || _ || _)%bool eqn:E; [ congruence | ]. apply orb_false_elim in E. destruct E as [E E3]. apply orb_false_elim in E. destruct E as [E1 E2].
    apply Z.ltb_ge in E1, E2, E3. intros _. destruct (_ || _ || _)%bool eqn:E'; [ | discriminate ]. exfalso.
    apply orb_true_iff in E'. destruct E' as [E'|E']; [ apply orb_true_iff in E'; destruct E' as [E'|E'] | ]; apply Z.ltb_lt in E'; lia.
  - unfold match_colour. destruct (match_channels _ s' 0 0) as [[x y]|] eqn:M; [ | congruence ].
    eapply (match_channels_closer _ s s' 0 0 0 0) in M; eauto; try lia. destruct M as (x' & y' & -> & L1 & L2).
    destruct (_ || _)%bool eqn:E; [ congruence | ]. apply orb_false_elim in E. destruct E as [E1 E2]. apply Z.ltb_ge in E1, E2.
    intros _. replace (_ || _)%bool with false; [ discriminate | ]. symmetry. apply orb_false_intro; apply Z.ltb_ge; lia.
Qed.

Lemma matches_closer m l l' : (forall s s', closer s s' -> m s' <> None -> m s <> None) -> Forall2 closer l l' -> (matches m l' <= matches m l)%nat.
Proof.
  intros Hm H. unfold matches. induction H; cbn [filter]; [ lia | ]. specialize (Hm _ _ H).
  destruct (m x), (m y); cbn [length]; try lia. exfalso. apply Hm; [ discriminate | reflexivity ].
Qed.

Lemma color_threshold_pos c p : (0 <= min_color c)%Z -> 1 <= radius p -> (0 <= color_threshold c p)%Z.
Proof.
  intros M R. apply (Z.le_trans _ (Qfloor 0)); [ reflexivity | ]. unfold color_threshold. apply Qfloor_resp_le.
  assert (Q0 : 0 <= inject_Z (min_color c)) by (apply (inject_le 0); auto).
  assert (Q1 : 1 * inject_Z (min_color c) <= radius p * inject_Z (min_color c)) by (apply Qmult_le_compat_r; auto).
  assert (Q2 : inject_Z (if unstable p then 0 else min_color c / 5)%Z <= inject_Z (min_color c)).
  { apply inject_le. destruct (unstable p); [ auto | ]. apply Z.div_le_upper_bound; lia. }
  lra.
Qed.

Lemma u64_pos z : (0 <= u64 z)%Z.
Proof. unfold u64. apply Z.mod_pos_bound. lia. Qed.

Lemma match_channels_same sc : forall s, (0 <= sc)%Z -> same s -> match_channels sc s 0 0 = Some (0, 0)%Z.
Proof.
  induction s as [|x s IH]; intros H S; [ reflexivity | ]. inversion S; subst. cbn [match_channels].
  change (Z.min (0 / 2 * (255 / 16) + 0) 255) with 0%Z. destruct (Z.ltb_spec sc 0); [ lia | ]. cbn. apply IH; auto.
Qed.

Lemma match_same c p s : config_ok c -> 1 <= radius p -> same s -> match_sample c p s <> None.
Proof.
  intros (K1 & K2 & K3) R S. pose proof (color_threshold_pos c p K1 R) as T. unfold match_sample. destruct (grey c).
  - unfold match_grey. assert (E : hd (0, 0)%Z s = (0, 0)%Z) by (destruct S; cbn; auto). rewrite E.
    change (Z.min (0 / 4 * (255 / 16) + 0) 255) with 0%Z.
    assert (0 <= color_threshold c p / 2)%Z by (apply Z.div_pos; lia). pose proof (u64_pos (2 ^ shift_amount p + desc_offset c + (if unstable p then desc_offset c else 0))).
    unfold desc_threshold. destruct (Z.ltb_spec (color_threshold c p / 2) 0); [ lia | ]. destruct (Z.ltb_spec (u64 (2 ^ shift_amount p + desc_offset c + (if unstable p then desc_offset c else 0))) 0); [ lia | discriminate ].
  - unfold match_colour. rewrite match_channels_same; auto; [ | apply Z.div_pos; lia ].
    destruct (Z.ltb_spec (u64 (desc_threshold c p * 3)) 0); [ pose proof (u64_pos (desc_threshold c p * 3)); lia | ].
    destruct (Z.ltb_spec (color_threshold c p * 3) 0); [ lia | discriminate ].
Qed.

(* counting *)
Lemma at_least_filter {A} (f : A -> bool) (P : A -> Prop) : forall l k, (forall x, In x l -> f x = true <-> P x) ->
  (at_least k P l <-> (k <= length (filter f l))%nat).
Proof.
  induction l as [|x l IH]; intros k H.
  - cbn [filter length]. split.
    + intros (ks & N & L & K). destruct ks as [|j ks]; [ cbn in L; lia | ]. destruct (K j (or_introl eq_refl)) as (s & E & _). destruct j; discriminate.
    + intros L. assert (k = 0)%nat by lia. subst. exists []. split; [ constructor | split; [ reflexivity | intros j [] ] ].
  - assert (H' : forall y, In y l -> f y = true <-> P y) by (intros; apply H; right; auto).
    assert (Tail : forall ks, NoDup ks -> (forall j, In j ks -> exists s, nth_error (x :: l) j = Some s /\ P s) -> ~ In 0%nat ks ->
                   at_least (length ks) P l).
    { intros ks N K Z. exists (map Nat.pred ks). split; [ | split; [ apply map_length | ] ].
      - assert (Inj : forall a b, In a ks -> In b ks -> Nat.pred a = Nat.pred b -> a = b).
        { intros a b Ia Ib E. assert (a <> 0)%nat by (intros ->; auto). assert (b <> 0)%nat by (intros ->; auto). lia. }
        clear K Z. induction N as [|a ks' Ha N IHn]; cbn; constructor.
        + rewrite in_map_iff. intros (b & E & Ib). apply Ha. rewrite (Inj a b); auto; [ left; auto | right; auto ].
        + apply IHn. intros; apply Inj; auto; right; auto.
      - intros j Hj. apply in_map_iff in Hj. destruct Hj as (a & E & Ia). destruct (K a Ia) as (s & Es & Ps). destruct a as [|a]; [ contradiction | ]. cbn in E. subst. exists s; auto. }
    split.
    + intros (ks & N & L & K). destruct (in_dec Nat.eq_dec 0%nat ks) as [I|I].
      * destruct (K _ I) as (s & Es & Ps). cbn in Es. inversion Es; subst s. apply (H x (or_introl eq_refl)) in Ps. cbn [filter]. rewrite Ps. cbn [length].
        apply in_split in I. destruct I as (l1 & l2 & ->). pose proof (NoDup_remove_1 _ _ _ N). pose proof (NoDup_remove_2 _ _ _ N).
        assert (T : at_least (length (l1 ++ l2)) P l). { apply Tail; auto. intros j Hj. apply K. rewrite in_app_iff in *. cbn. tauto. }
        apply (IH _ H') in T. rewrite app_length in *. cbn in L. lia.
      * apply Tail in I; auto. rewrite L in I. apply (IH _ H') in I. cbn [filter]. destruct (f x); cbn; lia.
    + cbn [filter]. intros L. destruct (f x) eqn:F.
      * destruct k as [|k]; [ exists []; split; [ constructor | split; [ reflexivity | intros j [] ] ] | ]. cbn in L.
        assert (L' : (k <= length (filter f l))%nat) by lia. apply (IH _ H') in L'. destruct L' as (ks & N & Lk & K).
        exists (0%nat :: map S ks). split; [ | split; [ cbn; rewrite map_length; lia | ] ].
        -- constructor; [ rewrite in_map_iff; intros (a & E & _); discriminate | apply Injective_map_NoDup; auto; intros a b E; congruence ].
        -- intros j [ <- | Hj ]; [ exists x; split; auto; apply H; auto; left; auto | ]. apply in_map_iff in Hj. destruct Hj as (a & <- & Ia). apply K; auto.
      * apply (IH _ H') in L. destruct L as (ks & N & Lk & K). exists (map S ks). split; [ apply Injective_map_NoDup; auto; intros a b E; congruence | split; [ rewrite map_length; auto | ] ].
        intros j Hj. apply in_map_iff in Hj. destruct Hj as (a & <- & Ia). apply K; auto.
Qed.

Lemma at_least_weaken {A} k (P Q : A -> Prop) l : (forall x, In x l -> P x -> Q x) -> at_least k P l -> at_least k Q l.
Proof.
  intros H (ks & N & L & K). exists ks. split; auto. split; auto. intros j Hj. destruct (K j Hj) as (s & E & Ps). exists s. split; auto. apply H; auto. eapply nth_error_In; eauto.
Qed.

Lemma matches_at_least m l k : at_least k (fun s => m s <> None) l <-> (k <= matches m l)%nat.
Proof. apply at_least_filter. intros x _. destruct (m x); split; congruence. Qed.

Lemma color_threshold_limit c p : color_threshold c p = colour_limit c (radius p) (unstable p).
Proof. unfold color_threshold, colour_limit. destruct (unstable p); reflexivity. Qed.

Lemma desc_limit_range c p : (0 <= desc_offset c < 2 ^ 60)%Z -> 1 <= radius p -> (shift_amount p < 62)%Z ->
  (0 <= desc_limit c (radius p) (unstable p) < 2 ^ 62 + 2 ^ 60)%Z /\ desc_threshold c p = desc_limit c (radius p) (unstable p).
Proof.
  intros D R S. unfold desc_threshold, desc_limit. fold (shift_amount p).
  assert (K0 : (0 <= shift_amount p)%Z). { unfold shift_amount. apply (Z.le_trans _ (Qfloor 0)); [ reflexivity | ]. apply Qfloor_resp_le. lra. }
  assert (K1 : (0 < 2 ^ shift_amount p <= 2 ^ 61)%Z) by (split; [ apply Z.pow_pos_nonneg; lia | apply Z.pow_le_mono_r; lia ]).
  assert (E : (2 ^ shift_amount p + desc_offset c + (if unstable p then desc_offset c else 0) = 2 ^ shift_amount p + (if unstable p then 2 else 1) * desc_offset c)%Z) by (destruct (unstable p); lia).
  rewrite E. assert (Rg : (0 <= 2 ^ shift_amount p + (if unstable p then 2 else 1) * desc_offset c < 2 ^ 62 + 2 ^ 60)%Z) by (destruct (unstable p); lia).
  split; auto. unfold u64. apply Z.mod_small. lia.
Qed.

Lemma match_channels_spec sc : forall s a b, match_channels sc s a b =
  if forallb (fun cd => ((fst cd <=? sc) && (colour_sum cd <=? sc))%Z) s then Some (a + total (map colour_sum s), b + total (map snd s))%Z else None.
Proof.
  induction s as [|[col desc] s IH]; intros a b; cbn [match_channels forallb map total fold_right]; [ f_equal; f_equal; lia | ].
  unfold colour_sum at 1. cbn [fst snd]. change (255 / 16)%Z with 15%Z. fold (colour_sum (col, desc)).
  change (Z.min (desc / 2 * 15 + col) 255) with (colour_sum (col, desc)). rewrite (Z.leb_antisym sc col), (Z.leb_antisym sc (colour_sum _)), <- negb_orb.
  destruct ((sc <? col) || (sc <? colour_sum (col, desc)))%Z; cbn [negb andb]; [ reflexivity | ]. rewrite IH.
  destruct (forallb _ s); [ | reflexivity ]. f_equal. f_equal; cbn [snd]; unfold total; lia.
Qed.

Lemma total_le s : Forall channel_ok s -> (0 <= total (map snd s) <= 16 * Z.of_nat (length s))%Z.
Proof. induction 1 as [|x s Hx H IH]; cbn [map total fold_right length]; [ lia | ]. unfold total in *. destruct Hx. lia. Qed.

Lemma match_similar c p s : config_ok c -> (desc_offset c < 2 ^ 60)%Z -> 1 <= radius p -> (shift_amount p < 62)%Z -> sample_ok c s ->
  (match_sample c p s <> None <-> similar c (radius p) (unstable p) s).
Proof.
  intros (K1 & K2 & K3) D R S (Ls & Cs). destruct (desc_limit_range c p) as [Rg E]; auto.
  unfold match_sample, similar. rewrite E, color_threshold_limit. set (a := colour_limit c (radius p) (unstable p)). set (b := desc_limit c (radius p) (unstable p)) in *.
  destruct (grey c) eqn:G.
  - unfold channels in Ls. rewrite G in Ls. destruct s as [|cd [|? ?]]; try (cbn in Ls; lia). unfold match_grey. destruct cd as [col desc]. cbn [hd].
    change (255 / 16)%Z with 15%Z. change (Z.min (desc / 4 * 15 + col) 255) with (grey_sum (col, desc)).
    assert (Hf : forall x, ((a / 2 <? x) = false <-> 2 * x <= a)%Z).
    { intros x. rewrite Z.ltb_ge. split; intros; [ pose proof (Z.mul_div_le a 2 ltac:(lia)); lia | apply Z.div_le_lower_bound; lia ]. }
    split.
    + intros H. exists (col, desc). split; auto. cbn [fst snd].
      destruct (a / 2 <? col)%Z eqn:E1; [ cbn in H; congruence | ]. destruct (b <? desc)%Z eqn:E2; [ cbn in H; congruence | ].
      destruct (a / 2 <? grey_sum (col, desc))%Z eqn:E3; [ cbn in H; congruence | ]. apply Hf in E1. apply Hf in E3. apply Z.ltb_ge in E2. auto.
    + intros (cd & Ecd & H1 & H2 & H3). inversion Ecd; subst cd. cbn [fst snd] in *. apply Hf in H1. apply Hf in H2. apply Z.ltb_ge in H3. rewrite H1, H2, H3. discriminate.
  - unfold match_colour. rewrite match_channels_spec.
    assert (Hf : forall x, (x <= a * 3 / 2 <-> 2 * x <= 3 * a)%Z).
    { intros x. split; intros; [ pose proof (Z.mul_div_le (a * 3) 2 ltac:(lia)); lia | apply Z.div_le_lower_bound; lia ]. }
    assert (FE : forallb (fun cd => ((fst cd <=? a * 3 / 2) && (colour_sum cd <=? a * 3 / 2))%Z) s = true <->
                 Forall (fun cd => 2 * fst cd <= 3 * a /\ 2 * colour_sum cd <= 3 * a)%Z s).
    { rewrite forallb_forall, Forall_forall. split; intros H x Hx; specialize (H x Hx).
      - apply andb_true_iff in H. rewrite !Z.leb_le in H. rewrite <- !Hf. auto.
      - apply andb_true_iff. rewrite !Z.leb_le. rewrite !Hf. auto. }
    assert (U : u64 (b * 3) = (b * 3)%Z) by (apply Z.mod_small; lia). rewrite U.
    destruct (forallb _ s) eqn:F.
    + rewrite !Z.add_0_l. destruct (Z.ltb_spec (b * 3) (total (map snd s))); [ split; [ cbn; congruence | intros (_ & H1 & H2); lia ] | ].
      destruct (Z.ltb_spec (a * 3) (total (map colour_sum s))); [ split; [ cbn; congruence | intros (_ & H1 & H2); lia ] | ].
      split; [ intros _ | discriminate ]. split; [ apply FE; auto | lia ].
    + split; [ congruence | intros (H & _) ]. apply FE in H. congruence.
Qed.

Lemma decision c i p g fg s' : config_ok c -> (desc_offset c < 2 ^ 60)%Z -> input_ok c i -> 1 <= radius p -> (shift_amount p < 62)%Z ->
  step c i (p, g) = Done (fg, s') -> (fg = false <-> at_least (required c) (similar c (radius p) (unstable p)) (samples i)).
Proof.
  intros K D (I & _) R S H. apply step_fg in H. rewrite H, Nat.ltb_ge, <- matches_at_least. rewrite Forall_forall in I.
  split; apply at_least_weaken; intros x Hx; apply match_similar; auto.
Qed.

Lemma identical c i p g fg s' : config_ok c -> 1 <= radius p -> at_least (required c) same (samples i) -> step c i (p, g) = Done (fg, s') -> fg = false.
Proof.
  intros K R A H. apply step_fg in H. rewrite H. apply Nat.ltb_ge. apply matches_at_least. eapply at_least_weaken; [ | exact A ]. intros x _. apply match_same; auto.
Qed.

Lemma monotone c i i' p g g' fg fg' s s' : Forall2 closer (samples i) (samples i') ->
  step c i (p, g) = Done (fg, s) -> step c i' (p, g') = Done (fg', s') -> fg' = false -> fg = false.
Proof.
  intros C H H' F. apply step_fg in H, H'. rewrite F in H'. symmetry in H'. apply Nat.ltb_ge in H'. rewrite H. apply Nat.ltb_ge.
  etransitivity; [ exact H' | ]. apply matches_closer; auto. intros. eapply match_closer; eauto.
Qed.

(* ------------------------------------------------------------------ a history with a shift out of range *)

Definition default : config := {| grey := true; min_color := 30; desc_offset := 3; required := 2; window := 100; scaling := false |}.
Definition near : sample := [(0, 0)%Z].
Definition far : sample := [(255, 16)%Z].
Definition shown (l : list sample) : input := {| samples := l; final := false; dilated := false; diff_ratio := 0 |}.
Fixpoint times {A} (n : nat) (l : list A) : list A := match n with O => [] | S n' => l ++ times n' l end.
Definition opening : list input := times 12 [shown [far; far]; shown [near; near]] ++ times 50 [shown [near; far]; shown [near; near]].
Definition blink (raw : bool) : input := shown (if raw then [near; near] else [near; far]).

Lemma near_match p : 1 <= radius p -> match_sample default p near = Some (0, 0)%Z.
Proof.
  intros R. unfold match_sample, default. cbn [grey]. unfold match_grey, near. cbn [hd].
  pose proof (color_threshold_pos default p ltac:(cbn; lia) R) as T. unfold default in T.
  assert (0 <= color_threshold {| grey := true; min_color := 30; desc_offset := 3; required := 2; window := 100; scaling := false |} p / 2)%Z by (apply Z.div_pos; lia).
  match goal with |- context [(?a <? 0)%Z] => destruct (Z.ltb_spec a 0); [ lia | ] end.
  unfold desc_threshold. match goal with |- context [(u64 ?a <? 0)%Z] => destruct (Z.ltb_spec (u64 a) 0); [ pose proof (u64_pos a); lia | ] end.
  change (Z.min (0 / 4 * (255 / 16) + 0) 255) with 0%Z.
  match goal with |- context [(?a <? 0)%Z] => destruct (Z.ltb_spec a 0); [ lia | ] end. reflexivity.
Qed.
Lemma far_match p : 1 <= radius p -> radius p <= 5 -> match_sample default p far = None.
Proof.
  intros R1 R2. unfold match_sample. cbn [grey default]. unfold match_grey, far. cbn [hd].
  assert (color_threshold default p / 2 < 255)%Z.
  { apply Z.div_lt_upper_bound; [ lia | ]. unfold color_threshold. cbn [min_color default].
    assert (F : inject_Z (Qfloor (radius p * inject_Z 30 - inject_Z (if unstable p then 0 else 30 / 5)%Z)) <= inject_Z 150).
    { eapply Qle_trans; [ apply Qfloor_le | ]. change (inject_Z 150) with 150. change (inject_Z 30) with 30.
      assert (0 <= inject_Z (if unstable p then 0 else 30 / 5)%Z) by (destruct (unstable p); vm_compute; discriminate).
      revert H. generalize (inject_Z (if unstable p then 0 else 30 / 5)%Z). intros o O'. lra. }
    rewrite <- Zle_Qle in F. lia. }
  destruct (Z.ltb_spec (color_threshold default p / 2) 255); [ reflexivity | lia ].
Qed.

Lemma shift_small p : radius p <= 5 -> (64 <=? shift_amount p)%Z = false.
Proof.
  intros R. apply Z.leb_gt. unfold shift_amount. pose proof (Qfloor_le (radius p + (1 # 2))) as F.
  assert (L : inject_Z (Qfloor (radius p + (1 # 2))) < inject_Z 64) by (change (inject_Z 64) with 64; lra). rewrite <- Zlt_Qlt in L. auto.
Qed.

Lemma factors n : (100 <= n)%Z -> factor (n + 1) (window default) = Some (1 / inject_Z 100) /\ factor (n + 1) (window default / 4) = Some (1 / inject_Z 25).
Proof.
  intros N. unfold factor. cbn [window default]. change (100 / 4)%Z with 25%Z. rewrite !Z.min_r by lia. split; reflexivity.
Qed.

(* the step on the default configuration, given the distance *)
Lemma default_step n p g l good ls ld : (100 <= n)%Z -> frame_no g = n -> radius p <= 5 ->
  scan (match_sample default p) 2 l 0 255 16 = (good, (ls, ld)) -> last_final p = false -> clear p = true -> blinks p = true ->
  exists p' g', step default (shown l) (p, g) = Done (Nat.ltb good 2, (p', g')) /\ frame_no g' = (n + 1)%Z /\
    let d := min_distance default good ls ld in
    min_lt p' == min_lt p * (99 # 100) + d * (1 # 100) /\ min_st p' == min_st p * (24 # 25) + d * (1 # 25) /\
    (exists unst, modulator p' = Qred (next_modulator p unst (Qmax (min_lt p') (min_st p')))) /\
    radius p' = Qred (next_radius p (modulator p') (Qmin (min_lt p') (min_st p'))) /\
    last_final p' = false /\ clear p' = true /\ blinks p' = xorb (Nat.ltb good 2) (last_raw p) || last_blink p /\
    last_raw p' = Nat.ltb good 2 /\ last_blink p' = xorb (Nat.ltb good 2) (last_raw p).
Proof.
  intros N F R S L C B. destruct (factors n N) as [F1 F2]. unfold step. rewrite F, F1, F2. unfold pixel_step. rewrite (shift_small p R).
  change (required default) with 2%nat. change (255 * channels default)%Z with 255%Z. change (16 * channels default)%Z with 16%Z.
  cbn [samples shown]. rewrite S. unfold global_step. cbn [scaling default].
  do 2 eexists. split; [ reflexivity | ]. cbn [frame_no min_lt min_st modulator radius last_final clear blinks last_raw last_blink final dilated shown negb].
  split; [ reflexivity | ]. split; [ unfold roll; rewrite Qred_correct; change (1 / inject_Z 100) with (1 # 100); lra | ].
  split; [ unfold roll; rewrite Qred_correct; change (1 / inject_Z 25) with (1 # 25); lra | ].
  split; [ eexists; reflexivity | ]. split; [ reflexivity | ]. split; [ reflexivity | ]. split; [ reflexivity | ].
  rewrite C, !andb_true_r. auto.
Qed.

Record calm (n : Z) (v r : Q) (raw : bool) (s : pixel * global) : Prop := {
  c_frame : frame_no (snd s) = n; c_mod : v <= modulator (fst s); c_rad : r <= radius (fst s) <= 45 # 10;
  c_lt : (if raw then 203 # 1000 else 1 # 5) <= min_lt (fst s) <= (if raw then 322 # 1000 else 32 # 100);
  c_st : (if raw then 212 # 1000 else 1 # 5) <= min_st (fst s) <= (if raw then 328 # 1000 else 32 # 100);
  c_final : last_final (fst s) = false; c_clear : clear (fst s) = true; c_blinks : blinks (fst s) = true;
  c_raw : last_raw (fst s) = raw; c_blink : last_blink (fst s) = true }.

Lemma calm_step n v r raw s : (100 <= n)%Z -> 100 <= v -> 3 <= r -> calm n v r raw s ->
  exists s' fg, step default (blink raw) s = Done (fg, s') /\ calm (n + 1) (v + 1) (r - (1 # 10000)) (negb raw) s'.
Proof.
  intros N V R [F M [Ra1 Ra2] LT ST Fi Cl Bl Raw Lb]. destruct s as [p g]. cbn [fst snd] in *.
  assert (R1 : 1 <= radius p) by lra. assert (R5 : radius p <= 5) by lra.
  set (good := if raw then 2%nat else 1%nat).
  assert (S : scan (match_sample default p) 2 (if raw then [near; near] else [near; far]) 0 255 16 = (good, (0, 0)%Z)).
  { unfold good. destruct raw; cbn [scan Nat.ltb Nat.leb]; rewrite (near_match p R1); [ reflexivity | ]. rewrite (far_match p R1 R5). reflexivity. }
  destruct (default_step n p g _ good 0 0 N F R5 S Fi Cl Bl) as (p' & g' & St & F' & ML & MS & (unst & MV) & MR & A1 & A2 & A3 & A4 & A5).
  exists (p', g'), (Nat.ltb good 2). split; [ exact St | ].
  assert (D : min_distance default good 0 0 == if raw then 0 else 1 # 2) by (unfold good; destruct raw; reflexivity).
  rewrite D in ML, MS.
  assert (LT' : (if negb raw then 203 # 1000 else 1 # 5) <= min_lt p' <= (if negb raw then 322 # 1000 else 32 # 100)).
  { rewrite ML. destruct raw; cbn [negb]; lra. }
  assert (ST' : (if negb raw then 212 # 1000 else 1 # 5) <= min_st p' <= (if negb raw then 328 # 1000 else 32 # 100)).
  { rewrite MS. destruct raw; cbn [negb]; lra. }
  assert (HI : 1 # 5 <= Qmax (min_lt p') (min_st p')) by (eapply Qle_trans; [ | apply Q.le_max_l ]; destruct raw; cbn [negb] in LT'; lra).
  assert (LO : 1 # 5 <= Qmin (min_lt p') (min_st p') <= 33 # 100).
  { split; [ apply Q.min_glb; destruct raw; cbn [negb] in LT', ST'; lra | ]. eapply Qle_trans; [ apply Q.le_min_l | ]. destruct raw; cbn [negb] in LT'; lra. }
  assert (MV' : modulator p' == modulator p + 1).
  { rewrite MV, Qred_correct. unfold next_modulator. rewrite Bl, andb_true_r.
    replace (Qltb UNSTABLE_REG_RATIO_MIN (Qmax (min_lt p') (min_st p'))) with true; [ reflexivity | ].
    symmetry. apply Qltb_true. unfold UNSTABLE_REG_RATIO_MIN. lra. }
  assert (MR' : radius p - (1 # 10000) <= radius p' <= radius p).
  { rewrite MR, Qred_correct. unfold next_radius.
    replace (Qltb (radius p) ((1 + Qmin (min_lt p') (min_st p') * 2) * (1 + Qmin (min_lt p') (min_st p') * 2))) with false.
    - assert (X : 0 < FEEDBACK_R_VAR / modulator p') by (apply Qlt_shift_div_l; [ lra | unfold FEEDBACK_R_VAR; lra ]).
      assert (Y : FEEDBACK_R_VAR / modulator p' <= 1 # 10000) by (apply Qle_shift_div_r; [ lra | unfold FEEDBACK_R_VAR; lra ]).
      qcase; lra.
    - symmetry. apply Qltb_false. revert LO. generalize (Qmin (min_lt p') (min_st p')). intros q Q.
      assert ((1 + q * 2) * (1 + q * 2) <= (17 # 10) * (1 + q * 2)) by (apply Qmult_le_compat_r; lra). lra. }
  assert (E1 : Nat.ltb good 2 = negb raw) by (unfold good; destruct raw; reflexivity).
  assert (E2 : xorb (Nat.ltb good 2) (last_raw p) = true) by (rewrite E1, Raw; destruct raw; reflexivity).
  split; cbn [fst snd]; auto; try lra.
  - rewrite A3, E2. reflexivity.
  - rewrite A4. auto.
  - rewrite A5. auto.
Qed.

Fixpoint blinking (k : nat) (raw : bool) : list input := match k with O => [] | S k' => blink raw :: blinking k' (negb raw) end.

Lemma calm_run k : forall n v r raw s, (100 <= n)%Z -> 100 <= v -> 3 <= r - inject_Z (Z.of_nat k) * (1 # 10000) -> calm n v r raw s ->
  exists s' raw', play default (blinking k raw) s = Done s' /\ calm (n + Z.of_nat k) (v + inject_Z (Z.of_nat k)) (r - inject_Z (Z.of_nat k) * (1 # 10000)) raw' s'.
Proof.
  induction k as [|k IH]; intros n v r raw s N V R C.
  - exists s, raw. split; [ reflexivity | ]. destruct C. change (inject_Z (Z.of_nat 0)) with 0 in *. split; auto; try lia; lra.
  - rewrite Nat2Z.inj_succ, <- Z.add_1_r, inject_Z_plus in R. change (inject_Z 1) with 1 in R.
    assert (Kp : 0 <= inject_Z (Z.of_nat k)) by (apply (inject_le 0); lia).
    destruct (calm_step n v r raw s N V ltac:(lra) C) as (s1 & fg & S & C1). cbn [blinking play]. rewrite S.
    destruct (IH (n + 1)%Z (v + 1) (r - (1 # 10000)) (negb raw) s1 ltac:(lia) ltac:(lra) ltac:(lra) C1) as (s' & raw' & P & C').
    exists s', raw'. split; auto. rewrite Nat2Z.inj_succ, <- Z.add_1_r, inject_Z_plus. change (inject_Z 1) with 1.
    destruct C'. split; auto; try lia; lra.
Qed.

Record rise (x w : Q) (s : pixel * global) : Prop := {
  r_frame : (100 <= frame_no (snd s))%Z; r_mod : w <= modulator (fst s); r_rad : 1 <= radius (fst s) <= 45 # 10;
  r_lt : x <= min_lt (fst s); r_st : x <= min_st (fst s);
  r_final : last_final (fst s) = false; r_clear : clear (fst s) = true }.

(* as default_step, whatever the blinks *)
Lemma default_step' n p g l good ls ld : (100 <= n)%Z -> frame_no g = n -> radius p <= 5 ->
  scan (match_sample default p) 2 l 0 255 16 = (good, (ls, ld)) ->
  exists p' g', step default (shown l) (p, g) = Done (Nat.ltb good 2, (p', g')) /\ frame_no g' = (n + 1)%Z /\
    let d := min_distance default good ls ld in
    min_lt p' == min_lt p * (99 # 100) + d * (1 # 100) /\ min_st p' == min_st p * (24 # 25) + d * (1 # 25) /\
    (exists unst, modulator p' = Qred (next_modulator p unst (Qmax (min_lt p') (min_st p')))) /\
    radius p' = Qred (next_radius p (modulator p') (Qmin (min_lt p') (min_st p'))) /\
    last_final p' = false /\ clear p' = true.
Proof.
  intros N F R S. destruct (factors n N) as [F1 F2]. unfold step. rewrite F, F1, F2. unfold pixel_step. rewrite (shift_small p R).
  change (required default) with 2%nat. change (255 * channels default)%Z with 255%Z. change (16 * channels default)%Z with 16%Z.
  cbn [samples shown]. rewrite S. unfold global_step. cbn [scaling default].
  do 2 eexists. split; [ reflexivity | ]. cbn [frame_no min_lt min_st modulator radius last_final clear blinks last_raw last_blink final dilated shown negb].
  split; [ reflexivity | ]. split; [ unfold roll; rewrite Qred_correct; change (1 / inject_Z 100) with (1 # 100); lra | ].
  split; [ unfold roll; rewrite Qred_correct; change (1 / inject_Z 25) with (1 # 25); lra | ].
  split; [ eexists; reflexivity | ]. split; [ reflexivity | ]. split; reflexivity.
Qed.

Lemma rise_step x w s : rise x w s -> x <= 6 # 10 -> 6400 <= w -> exists fg s', step default (shown [far; far]) s = Done (fg, s') /\
  ((64 <= shift_amount (fst s'))%Z \/ (rise (x + (4 # 1000)) (w - (1 # 10)) s' /\ x < 6 # 10)) /\ (100 <= frame_no (snd s'))%Z.
Proof.
  intros [F M [Ra1 Ra2] LT ST Fi Cl] X W. destruct s as [p g]. cbn [fst snd] in *.
  assert (R5 : radius p <= 5) by lra.
  assert (S : scan (match_sample default p) 2 [far; far] 0 255 16 = (0%nat, (255, 16)%Z)).
  { cbn [scan Nat.ltb Nat.leb]. rewrite (far_match p Ra1 R5). reflexivity. }
  destruct (default_step' _ p g _ _ _ _ F eq_refl R5 S) as (p' & g' & St & F' & ML & MS & (unst & MV) & MR & A1 & A2).
  exists (Nat.ltb 0 2), (p', g'). split; [ exact St | ]. cbn [fst snd]. split; [ | lia ].
  assert (D : min_distance default 0 255 16 == 1) by reflexivity. rewrite D in ML, MS.
  assert (LT' : x + (4 # 1000) <= min_lt p') by (rewrite ML; lra).
  assert (ST' : x + (4 # 1000) <= min_st p') by (rewrite MS; lra).
  assert (LO : x + (4 # 1000) <= Qmin (min_lt p') (min_st p')) by (apply Q.min_glb; auto).
  assert (MV' : modulator p - (1 # 10) <= modulator p').
  { rewrite MV, Qred_correct. apply next_modulator_in. unfold FEEDBACK_V_DECR. lra. }
  assert (V' : 63 <= FEEDBACK_R_VAR * (modulator p' - FEEDBACK_V_DECR)) by (unfold FEEDBACK_R_VAR, FEEDBACK_V_DECR; lra).
  assert (Rv : 0 < FEEDBACK_R_VAR / modulator p') by (apply Qlt_shift_div_l; [ lra | unfold FEEDBACK_R_VAR; lra ]).
  revert MR LO. generalize (Qmin (min_lt p') (min_st p')). intros q MR Q.
  assert (MR' : radius p' == next_radius p (modulator p') q) by (rewrite MR; apply Qred_correct). unfold next_radius in MR'.
  destruct (Qltb (radius p) ((1 + q * 2) * (1 + q * 2))) eqn:E; [ apply Qltb_true in E | apply Qltb_false in E ].
  - left. unfold shift_amount. change 64%Z with (Qfloor 64). apply Qfloor_resp_le. lra.
  - right. split.
    + split; cbn [fst snd]; auto; try lia; try lra. destruct (Qltb (radius p - FEEDBACK_R_VAR / modulator p') 1) eqn:E1; [ lra | apply Qltb_false in E1; lra ].
    + destruct (Qlt_le_dec x (6 # 10)); auto. exfalso.
      assert ((22 # 10) * (1 + q * 2) <= (1 + q * 2) * (1 + q * 2)) by (apply Qmult_le_compat_r; lra). lra.
Qed.

Lemma far_fault s l : (100 <= frame_no (snd s))%Z -> (64 <= shift_amount (fst s))%Z -> play default (shown l :: []) s = Fault Shift64.
Proof.
  intros F H. destruct s as [p g]. cbn [play fst snd] in *. unfold step. destruct (factors (frame_no g) F) as [-> ->].
  unfold pixel_step. apply Z.leb_le in H. rewrite H. reflexivity.
Qed.

Lemma play_prefix c l l' s f : play c l s = Fault f -> play c (l ++ l') s = Fault f.
Proof. intros H. rewrite play_app, H. reflexivity. Qed.

Lemma rise_run k : forall x w s, rise x w s -> x <= 6 # 10 -> 6 # 10 <= x + inject_Z (Z.of_nat k) * (4 # 1000) -> 6400 <= w - inject_Z (Z.of_nat k) * (1 # 10) ->
  play default (times (k + 2) [shown [far; far]]) s = Fault Shift64.
Proof.
  induction k as [|k IH]; intros x w s H X G W.
  - change (inject_Z (Z.of_nat 0)) with 0 in *. destruct (rise_step x w s H X ltac:(lra)) as (fg & s' & St & C & F). cbn [times Nat.add app play]. rewrite St.
    destruct C as [C|[_ C]]; [ | lra ]. apply far_fault; auto.
  - rewrite Nat2Z.inj_succ, <- Z.add_1_r, inject_Z_plus in *. change (inject_Z 1) with 1 in *.
    assert (Kp : 0 <= inject_Z (Z.of_nat k)) by (apply (inject_le 0); lia).
    destruct (rise_step x w s H X ltac:(lra)) as (fg & s' & St & C & F). cbn [times Nat.add app play]. rewrite St.
    destruct C as [C|[C X']].
    + replace (k + 2)%nat with (S (k + 1)) by lia. cbn [times]. apply play_prefix. apply far_fault; auto.
    + destruct (Qlt_le_dec (6 # 10) (x + (4 # 1000))) as [L|L].
      * apply (IH (6 # 10) (w - (1 # 10))); try lra. destruct C. split; auto; lra.
      * apply (IH (x + (4 # 1000)) (w - (1 # 10))); auto; lra.
Qed.

Definition calmb (s : pixel * global) : bool :=
  (frame_no (snd s) =? 124)%Z && Qle_bool 100 (modulator (fst s)) && Qle_bool (43 # 10) (radius (fst s)) && Qle_bool (radius (fst s)) (45 # 10) &&
  (Qle_bool (1 # 5) (min_lt (fst s)) && Qle_bool (min_lt (fst s)) (32 # 100)) && (Qle_bool (1 # 5) (min_st (fst s)) && Qle_bool (min_st (fst s)) (32 # 100)) &&
  (negb (last_final (fst s)) && clear (fst s) && blinks (fst s) && negb (last_raw (fst s)) && last_blink (fst s)).

Lemma opening_calm : exists s, play default opening (start default, start_global default) = Done s /\ calm 124 100 (43 # 10) false s.
Proof.
  assert (H : match play default opening (start default, start_global default) with Done s => calmb s | Fault _ => false end = true) by (vm_compute; reflexivity).
  destruct (play default opening (start default, start_global default)) as [s|]; [ | discriminate ]. exists s. split; auto.
  unfold calmb in H. repeat (apply andb_true_iff in H; let H1 := fresh "B" in destruct H as [H H1]).
  repeat match goal with B : (_ && _)%bool = true |- _ => apply andb_true_iff in B; let B1 := fresh "B" in destruct B as [B B1] end.
  repeat match goal with B : Qle_bool _ _ = true |- _ => apply Qle_bool_iff in B end.
  repeat match goal with B : negb _ = true |- _ => apply negb_true_iff in B end.
  apply Z.eqb_eq in H. split; auto.
Qed.

Definition history : list input := opening ++ blinking (Z.to_nat 6400) false ++ times 102 [shown [far; far]].

Lemma history_fault : play default history (start default, start_global default) = Fault Shift64.
Proof.
  unfold history. destruct opening_calm as (s & P & C). rewrite play_app, P, play_app.
  assert (E : inject_Z (Z.of_nat (Z.to_nat 6400)) = 6400) by (rewrite Z2Nat.id by lia; reflexivity).
  destruct (calm_run (Z.to_nat 6400) 124 100 (43 # 10) false s ltac:(lia) ltac:(lra) ltac:(rewrite E; lra) C) as (s' & raw' & P' & C').
  rewrite P'. rewrite E in C'. rewrite Z2Nat.id in C' by lia.
  apply (rise_run 100 (1 # 5) 6500); try (change (inject_Z (Z.of_nat 100)) with 100); try lra.
  destruct C' as [? ? ? CL CS ? ? ? ? ?]. split; auto; try lia; try lra; destruct raw'; lra.
Qed.

Lemma times_Forall {A} (P : A -> Prop) n l : Forall P l -> Forall P (times n l).
Proof. intros H. induction n; cbn [times]; [ constructor | apply Forall_app; auto ]. Qed.

Lemma shown_ok l : Forall (fun s => s = near \/ s = far) l -> input_ok default (shown l).
Proof.
  intros H. split; [ | cbn; lra ]. cbn [samples shown]. eapply Forall_impl; [ | apply H ]. intros s [ -> | -> ]; (split; [ reflexivity | apply Forall_cons; [ unfold channel_ok; cbn; lia | apply Forall_nil ] ]).
Qed.

Ltac shown_tac := repeat (apply Forall_cons; [ apply shown_ok; repeat (apply Forall_cons; [ auto | ]); apply Forall_nil | ]); apply Forall_nil.
Lemma history_ok : Forall (input_ok default) history.
Proof.
  unfold history, opening. rewrite !Forall_app. repeat split.
  - apply times_Forall. shown_tac.
  - apply times_Forall. shown_tac.
  - generalize (Z.to_nat 6400) false. induction n as [|n IH]; intros b; cbn [blinking]; [ apply Forall_nil | apply Forall_cons; auto ]. destruct b; apply shown_ok; repeat (apply Forall_cons; [ auto | ]); apply Forall_nil.
  - apply times_Forall. shown_tac.
Qed.

(* ------------------------------------------------------------------ a video with a shift of the caps out of range *)

Lemma ratio_uniform c v m : (0 < m)%nat -> color_diff_ratio c (repeat v m) == inject_Z (pixel_diff c v).
Proof.
  intros M. unfold color_diff_ratio. rewrite repeat_length.
  assert (MR : map (pixel_diff c) (repeat v m) = repeat (pixel_diff c v) m) by (clear; induction m; cbn; congruence). rewrite MR.
  assert (E : forall k a, fold_left Z.add (repeat (pixel_diff c v) k) a = (a + Z.of_nat k * pixel_diff c v)%Z).
  { induction k as [|k IH]; intros a; cbn [repeat fold_left]; [ lia | rewrite IH; lia ]. }
  rewrite E, Z.add_0_l, inject_Z_mult. field. intros H. assert (0 < inject_Z (Z.of_nat m)) by (apply (inject_lt 0); lia). lra.
Qed.

Definition bright : config := {| grey := false; min_color := 30; desc_offset := 3; required := 2; window := 100; scaling := true |}.
(* a channel is black for a hundred frames and then white for fourty *)
Definition lights : Q * Q := accumulate_video bright 0 (repeat 0 100 ++ repeat 255 40) (0, 0).
Lemma lights_diff : (64 <= pixel_diff bright [lights; lights; lights])%Z.
Proof. apply Z.leb_le. vm_compute. reflexivity. Qed.

Lemma lights_fault g m : (0 < m)%nat -> global_step bright (color_diff_ratio bright (repeat [lights; lights; lights] m)) g = Fault Shift32.
Proof.
  intros M. assert (R : 64 <= color_diff_ratio bright (repeat [lights; lights; lights] m)).
  { rewrite ratio_uniform by auto. apply (inject_le 64), lights_diff. }
  unfold global_step. cbn [scaling bright]. destruct (if auto_reset g then _ else _) as [[auto since] cool].
  rewrite next_caps_none; auto. change (inject_Z (min_color bright / 2 / 2)) with 7. lra.
Qed.

Lemma step_rate c i p g fg p' g' : low_cap g <= up_cap g -> step c i (p, g) = Done (fg, (p', g')) ->
  (rate p' = 1 /\ scaling c = true) \/ low_cap g <= rate p' <= up_cap g.
Proof.
  intros H. unfold step. destruct (factor _ (window c)) as [al|]; [ | discriminate ]. destruct (factor _ (window c / 4)) as [as_|]; [ | discriminate ].
  unfold pixel_step. destruct (64 <=? shift_amount p)%Z; [ discriminate | ]. destruct (scan _ _ _ _ _ _) as [good [ls ld]].
  match goal with |- context [Qred (next_rate ?g1 p ?b ?lo ?hi)] => generalize (next_rate_in g1 p b lo hi H); generalize (next_rate g1 p b lo hi) end.
  intros t T. cbn [low_cap up_cap] in T. unfold global_step.
  destruct (scaling c).
  - destruct (if auto_reset _ then _ else _) as [[auto since] cool]. destruct (next_caps _ _) as [[low up]|]; [ | discriminate ].
    intros E. inversion E; subst; clear E. cbn [rate].
    match goal with |- context [if ?b then 1 else _] => destruct b end; [ left; auto | right; rewrite !Qred_correct; auto ].
  - intros E. inversion E; subst; clear E. right. cbn [rate]. rewrite !Qred_correct. auto.
Qed.
