(* C91: the state and the clock of the virtual PTZ camera *)
From Coq Require Import ZArith Reals Bool List Lra Lia.
From Verif Require Import Model.Ptz Model.PtzCamera Spec.Ptz Spec.PtzCamera Proofs.Ptz Proofs.PtzCamera.
Import ListNotations.
Open Scope R_scope.

(* whatever is called in whatever order, as long as nothing fails, the camera keeps usable parameters *)
Theorem C91_invariant n r w h f ho ve hs vs cd c os c' : create n r w h f ho ve hs vs cd = Some c -> steps c os = Some c' ->
  (1 <= width (lens c'))%Z /\ (1 <= height (lens c'))%Z /\ 0 < fov (lens c') < 180 /\ -180 <= hori (lens c') <= 180 /\ 0 <= verti (lens c') <= 180 /\
  0 < hori_speed c' /\ 0 < verti_speed c' /\ 0 <= delay_ratio c' /\ 0 <= comm_delay c' /\ (0 <= frame c')%Z /\ -180 <= hori_change c' <= 180.
Proof. intros C X. destruct (create_spec _ _ _ _ _ _ _ _ _ _ _ C) as (S & _). exact (steps_sane os c c' S X). Qed.
Print Assumptions C91_invariant.

Theorem C91_create n r w h f ho ve hs vs cd : 0 < f < 180 -> 0 <= ve <= 180 -> 0 < hs -> 0 < vs -> 0 <= cd -> exists c, create n r w h f ho ve hs vs cd = Some c /\
  lens c = {| width := Z.max (trunc w) 1; height := Z.max (trunc h) 1; fov := f; hori := wrap ho; verti := ve |} /\ hori_change c = 0 /\ verti_change c = 0 /\ frame c = 0%Z.
Proof.
  intros A B C D E. destruct (create n r w h f ho ve hs vs cd) as [c|] eqn:X; [| now destruct (create_accepts n r w h f ho ve hs vs cd A B C D E) ].
  exists c. split; [ reflexivity |]. apply create_spec in X. tauto.
Qed.
Print Assumptions C91_create.

(* any horizontal angle can be set; the same direction is stored, between -180 and 180 degrees *)
Theorem C91_wrap c v : exists c', set c Hori_angle v = Some c' /\ same_direction (hori (lens c')) v /\ -180 <= hori (lens c') <= 180 /\
  (hori (lens c') = -180 <-> 180 < v /\ same_direction v 180).
Proof. eexists. split; [ reflexivity |]. cbn. pose proof (wrap_same v). pose proof (wrap_range v). pose proof (wrap_bad v). tauto. Qed.
Print Assumptions C91_wrap.

(* angles beyond 180 that point backwards are stored as -180, which all conversions reject: afterwards no pixel can be followed *)
Theorem C91_wrap_refuted c v : 180 < v -> same_direction v 180 -> exists c', set c Hori_angle v = Some c' /\ forall x y, go_to c' x y = None.
Proof. intros V S. eexists. split; [ reflexivity |]. intros x y. apply go_to_stuck. cbn. apply wrap_bad. tauto. Qed.
Print Assumptions C91_wrap_refuted.

(* otherwise each pixel can be followed: the camera then looks where the pixel was seen, and the motion is the shortest turn *)
Theorem C91_go_to n r w h f ho ve hs vs cd c0 os c x y : create n r w h f ho ve hs vs cd = Some c0 -> steps c0 os = Some c ->
  hori (lens c) <> -180 -> (0 <= x < width (lens c))%Z -> (0 <= y < height (lens c))%Z -> exists c', go_to c x y = Some c' /\
  seen_at (width (lens c)) (height (lens c)) (fov (lens c)) (hori (lens c)) (verti (lens c)) (forward (hori (lens c')) (verti (lens c'))) (IZR x) (IZR y) /\
  turn (hori (lens c)) (hori (lens c')) (Rabs (hori_change c')) /\ verti_change c' = verti (lens c') - verti (lens c).
Proof. intros C X. destruct (create_spec _ _ _ _ _ _ _ _ _ _ _ C) as (S & _). exact (go_to_usable c x y (steps_sane os c0 c S X)). Qed.
Print Assumptions C91_go_to.

Theorem C91_turn n r w h f ho ve hs vs cd c0 os c v : create n r w h f ho ve hs vs cd = Some c0 -> steps c0 os = Some c ->
  exists c', set c Hori_angle v = Some c' /\ turn (hori (lens c)) v (Rabs (hori_change c')).
Proof.
  intros C X. destruct (create_spec _ _ _ _ _ _ _ _ _ _ _ C) as (S & _). apply steps_sane in X; [| exact S ]. destruct X as (_ & _ & _ & D & _). eexists. split; [ reflexivity |]. cbn.
  pose proof (wrap_range v) as W. destruct (change_turn (hori (lens c)) (wrap v) ltac:(lra)) as ((j & J) & L). destruct (wrap_same v) as (k & K).
  assert (E : forall i, v - hori (lens c) + 360 * IZR i = wrap v - hori (lens c) + 360 * IZR (i - k)) by (intro i; rewrite minus_IZR, K; ring).
  split.
  - exists (j + k)%Z. rewrite J, E. do 4 f_equal. lia.
  - intro i. rewrite E. apply L.
Qed.
Print Assumptions C91_turn.

(* only frames of the sequence can be sought, and only upright tilts can be set; the tilt that is then paid for is the one that was made *)
Theorem C91_seek c v : (0 <= v <= IZR (count c - 1) <-> set c Frame_pos v <> None) /\ forall c', set c Frame_pos v = Some c' -> (0 <= frame c' < count c)%Z /\ IZR (frame c') <= v < IZR (frame c') + 1 /\ lens c' = lens c.
Proof. exact (set_seek c v). Qed.
Print Assumptions C91_seek.
Theorem C91_tilt c v : (0 <= v <= 180 <-> set c Verti_angle v <> None) /\ forall c', set c Verti_angle v = Some c' -> verti (lens c') = v /\ verti (lens c) + verti_change c' = v /\ hori (lens c') = hori (lens c) /\ hori_change c' = hori_change c.
Proof. exact (set_tilt c v). Qed.
Print Assumptions C91_tilt.

(* the sign of the motion: right up to 180 degrees, wrong beyond *)
Theorem C91_sign old new : -360 <= new - old <= 180 -> same_direction (old + change old new) new.
Proof. exact (change_sign old new). Qed.
Print Assumptions C91_sign.
Theorem C91_sign_refuted old new : 180 < new - old < 360 -> ~ same_direction (old + change old new) new.
Proof. exact (change_wrong old new). Qed.
Print Assumptions C91_sign_refuted.

(* waiting goes to a later frame, and returns whether there is one *)
Theorem C91_wait c t u c' b : wait c t u = Some (c', b) -> count c' = count c /\ (frame c <= frame c')%Z /\ (b = true <-> (frame c' < count c)%Z) /\ ((frame c < count c)%Z -> (frame c < frame c')%Z).
Proof. exact (wait_frames c t u c' b). Qed.
Print Assumptions C91_wait.

(* hence without seeking a scenario of n frames ends after at most n calls, whatever is called in between *)
Theorem C91_ends os c c' : forallb (fun o => negb (seeks o)) os = true -> steps c os = Some c' ->
  (Z.min (frame c + Z.of_nat (length (filter is_wait os))) (count c) <= frame c')%Z.
Proof. intros N X. now destruct (steps_frames os c c' N X) as (_ & _ & D). Qed.
Print Assumptions C91_ends.
(* on a still picture the first call already says that it has ended *)
Theorem C91_still c t u c' b : count c = 1%Z -> (0 <= frame c)%Z -> wait c t u = Some (c', b) -> b = false.
Proof. intros N F X. apply wait_frames in X. destruct b; [| reflexivity ]. lia. Qed.
Print Assumptions C91_still.

(* between two calls of WaitDelay the time that passed is charged, without that of the last GetFrame *)
Theorem C91_clock c t0 u0 c1 b os1 c2 t1 u1 os2 c3 t2 : wait c t0 u0 = Some (c1, b) -> (frame c < count c)%Z -> forallb moves os1 = true -> steps c1 os1 = Some c2 -> forallb moves os2 = true ->
  steps (get_frame c2 true t1 u1) os2 = Some c3 -> u0 <= t1 <= u1 /\ u1 <= t2 -> execution_delay c3 t2 = t2 - u0 - (u1 - t1) /\ 0 <= execution_delay c3 t2.
Proof.
  intros W F M1 X1 M2 X2 T. apply wait_spec in W. destruct W as [(A & _)|(_ & i & _ & -> & _)]; [ lia |]. apply moves_clock in X1; [| exact M1 ]. apply moves_clock in X2; [| exact M2 ]. cbn in X1, X2.
  unfold execution_delay. destruct X1 as (A & _ & _ & B). destruct X2 as (D & _ & E & G). rewrite D, E, G, A, B. lra.
Qed.
Print Assumptions C91_clock.
(* so that time goes on *)
Theorem C91_forward n r w h f ho ve hs vs cd c0 os c t u c' b : create n r w h f ho ve hs vs cd = Some c0 -> steps c0 os = Some c -> 0 <= execution_delay c t -> wait c t u = Some (c', b) -> now c <= now c'.
Proof.
  intros C X E W. destruct (create_spec _ _ _ _ _ _ _ _ _ _ _ C) as (S & _). apply steps_sane in X; [| exact S ]. pose proof (motion_nonneg c X) as M. apply wait_spec in W.
  destruct W as [(_ & -> & _)|(_ & i & _ & -> & _)]; [ lra |]. cbn. destruct X as (_ & _ & _ & _ & _ & _ & _ & P & Q & _). assert (0 <= delay_ratio c * execution_delay c t) by now apply Rmult_le_pos. lra.
Qed.
Print Assumptions C91_forward.

(* a motion is charged again by each later call, until the next motion *)
Theorem C91_idle_refuted c t u c' b t' u' c'' b' : wait c t u = Some (c', b) -> wait c' t' u' = Some (c'', b') -> (frame c' < count c')%Z -> delay_ratio c = 0 -> comm_delay c = 0 -> now c'' = now c' + motion_delay c.
Proof.
  intros W V F R0 D. apply wait_spec in W. apply wait_spec in V. destruct V as [(A & _)|(_ & j & _ & -> & _)]; [ lia |].
  destruct W as [(_ & -> & _)|(_ & i & _ & -> & _)]; cbn; unfold motion_delay; cbn; rewrite R0, D; ring.
Qed.
Print Assumptions C91_idle_refuted.
(* without a GetFrame in between, and after playing again, time can go backwards *)
Theorem C91_no_frame_refuted c t u c' b t' : wait c t u = Some (c', b) -> (frame c < count c)%Z -> t' - u < overhead c -> execution_delay c' t' < 0.
Proof. intros W F T. apply wait_spec in W. destruct W as [(A & _)|(_ & i & _ & -> & _)]; [ lia |]. unfold execution_delay. cbn. lra. Qed.
Print Assumptions C91_no_frame_refuted.
Theorem C91_restart_refuted c n t c' t' : begin_playing c n t = Some c' -> t' - t < begin_time c + overhead c -> execution_delay c' t' < 0.
Proof.
  intros X T. unfold begin_playing in X. destruct (set c Frame_pos (IZR n)) as [d|] eqn:E; [| discriminate ]. injection X as <-. destruct (move_clock c (Set_ Frame_pos (IZR n)) d eq_refl E) as (_ & _ & A & B).
  unfold execution_delay. cbn. rewrite A, B. lra.
Qed.
Print Assumptions C91_restart_refuted.
(* setting the position to an earlier frame has no effect on the frame after the next call *)
Theorem C91_seek_refuted c v c1 t u c2 b c3 b' : set c Frame_pos v = Some c1 -> (frame c1 <= frame c)%Z -> wait c t u = Some (c2, b) -> (frame c + 1 < frame c2)%Z -> wait c1 t u = Some (c3, b') -> frame c3 = frame c2.
Proof.
  intros S F W N V. cbn [set] in S. destruct (_ || _)%bool; [ discriminate |]. injection S as <-. cbn in F. apply wait_spec in W. apply wait_spec in V.
  destruct W as [(_ & -> & _)|(A & i & E & -> & _)]; [ lia |]. destruct V as [(B & _)|(_ & j & G & -> & _)]; [ cbn in B; lia |].
  change (to_int ((now c + (delay_ratio c * execution_delay c t + motion_delay c + comm_delay c)) * rate c + / 2) = Some j) in G. rewrite E in G. injection G as <-. cbn in *. lia.
Qed.
Print Assumptions C91_seek_refuted.

(* the translator without camera: the update checks the angles it replaces, so that any angles are taken, and bad ones once taken cannot be replaced *)
Theorem C91_update t h v : good_angles (hori (cur t)) (verti (cur t)) = true -> exists t', update_view t h v = Some t' /\ hori (cur t') = h /\ verti (cur t') = v /\
  forall a b, good_angles a b = true -> target_point t' a b = hv_to_xy (cur t') a b.
Proof. intro G. unfold update_view. rewrite G. eexists. split; [ reflexivity |]. repeat split. intros a b A. unfold target_point. now rewrite A. Qed.
Print Assumptions C91_update.
Theorem C91_update_refuted t h v : good_angles (hori (cur t)) (verti (cur t)) = true -> good_angles h v = false ->
  exists t', update_view t h v = Some t' /\ forall a b, update_view t' a b = None /\ target_point t' a b = Bad.
Proof.
  intros G B. unfold update_view at 1. rewrite G. eexists. split; [ reflexivity |]. intros a b. unfold update_view, target_point, hv_to_xy, good_view. cbn. rewrite B. rewrite andb_false_r. cbn. split; [ reflexivity |]. now destruct (negb (good_angles a b)).
Qed.
Print Assumptions C91_update_refuted.
(* the constructor checks members that are not yet set: good parameters may be refused and bad angles taken *)
Theorem C91_make_refuted w h f ho ve bw bh bf : (1 <= w)%Z -> (1 <= h)%Z -> 0 < f < 180 -> (1 <= bw)%Z -> (1 <= bh)%Z -> 0 < bf < 180 ->
  (exists h0 v0, make h0 v0 w h f ho ve bw bh bf = None) /\ (exists h0 v0 t, make h0 v0 w h f ho ve bw bh bf = Some t /\ hori (cur t) = ho /\ verti (cur t) = ve).
Proof.
  intros A B C D E F. split.
  - exists 1000, 0. unfold make. replace (good_angles 1000 0) with false; [ now rewrite orb_true_r |]. symmetry. apply not_true_is_false. rewrite good_angles_spec. lra.
  - exists 0, 0. unfold make. rewrite (proj2 (good_angles_spec 0 0)) by lra. rewrite !(proj2 (Z.ltb_ge _ 1)) by lia. rewrite (proj2 (leb_false f 0)), (proj2 (leb_false 180 f)), (proj2 (leb_false bf 0)), (proj2 (leb_false 180 bf)) by lra. cbn [orb negb].
    eexists. split; [ reflexivity |]. auto.
Qed.
Print Assumptions C91_make_refuted.

(* the angle 540 *)
Example C91_ex_540 : wrap 540 = -180.
Proof. apply wrap_bad. split; [ lra |]. exists 1%Z. lra. Qed.
(* from -100 to 100 degrees: the shortest turn is one of 160 to the left, stored as a turn to the right *)
Example C91_ex_turn : change (-100) 100 = 160 /\ turn (-100) 100 160.
Proof.
  assert (E : change (-100) 100 = 160). { unfold change. rewrite (proj2 (ltb_spec _ _)) by lra. lra. } split; [ exact E |].
  replace 160 with (Rabs (change (-100) 100)); [ apply change_turn; lra |]. rewrite E. apply Rabs_pos_eq. lra.
Qed.
(* 100 frames at 10 per second; moved by 30 degrees at 60 degrees per second: half a second is charged twice *)
Definition ex_cam : camera := {| count := 100; rate := 10; frame := 0; lens := {| width := 640; height := 480; fov := 90; hori := 30; verti := 90 |}; hori_speed := 60; verti_speed := 60; delay_ratio := 0; comm_delay := 0;
  hori_change := 30; verti_change := 0; first_tick := 0; now := 0; overhead := 0; begin_time := 0 |}.
Example C91_ex_idle : exists c1 c2, wait ex_cam 1 1 = Some (c1, true) /\ frame c1 = 5%Z /\ wait c1 2 2 = Some (c2, true) /\ frame c2 = 10%Z.
Proof.
  assert (M : motion_delay ex_cam = / 2). { unfold motion_delay, ex_cam. cbn. rewrite (Rabs_pos_eq 30), Rabs_R0 by lra. lra. }
  assert (T : forall r n, - / 2 <= r -> nearest r n -> (n <= int_max)%Z -> to_int (r + / 2) = Some n) by exact to_int_nearest.
  unfold wait at 1. cbn [count frame ex_cam Z.leb Z.compare]. cbv zeta. rewrite M. cbn [now delay_ratio comm_delay ex_cam rate].
  rewrite (T _ 5%Z); [| lra | unfold nearest; lra | unfold int_max; lia ]. eexists. eexists. split; [ reflexivity |]. split; [ reflexivity |].
  unfold wait. cbn [count frame with_clock with_frame ex_cam Z.leb Z.compare Z.max Z.add Pos.add]. cbv zeta. cbn [now delay_ratio comm_delay with_clock with_frame ex_cam rate].
  change (motion_delay (with_clock _ _ _ _ _)) with (motion_delay ex_cam). rewrite M. rewrite (T _ 10%Z); [| lra | unfold nearest; lra | unfold int_max; lia ]. split; reflexivity.
Qed.
