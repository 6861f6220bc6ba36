(* C56: the feedback loops of SuBSENSE and PBAS keep their per-pixel variables within bounds, and their decisions follow from them. *)
From Coq Require Import ZArith QArith Qround Qminmax List Bool Lia Lqa.
From Verif Require Import Model.Subsense Spec.Subsense Proofs.Subsense.
From Verif Require Model.Pbas Spec.Pbas Proofs.Pbas.
Import ListNotations.
Open Scope Q_scope.

(* ---- SuBSENSE *)

(* After any video that raises no fault, whatever the distances to the samples and the post-processing, the variables of a pixel and the
   caps of the next frame are within bounds; those of the modulator and of the distance factor grow with the number of frames. *)
Theorem C56_bounds : forall c frames p g, config_ok c -> Forall (input_ok c) frames ->
  play c frames (start c, start_global c) = Done (p, g) ->
  let n := inject_Z (Z.of_nat (length frames)) in
  (1 <= low_cap g /\ low_cap g <= up_cap g /\ up_cap g <= 512) /\ 1 <= rate p <= 512 /\
  (1 # 10) <= modulator p <= 10 + n /\ 1 <= radius p <= 9 + (1 # 100) * (n + (99 # 10)) /\
  Forall unit [min_lt p; min_st p; raw_lt p; raw_st p; final_lt p; final_st p].
Proof.
  intros c frames p g K F H n. apply (play_inv c K frames 0) in H; auto; [ | lia | apply inv_start ].
  rewrite Z.add_0_l in H. destruct H as [H1 H2 H3 H4 H5 H6]. fold n in H4, H5. unfold FEEDBACK_V_DECR, FEEDBACK_R_VAR in *.
  repeat (split; [ assumption || lra | ]). assumption.
Qed.
Print Assumptions C56_bounds.

(* After every frame the update rate is within the caps in force during the frame, unless the frame-level component set it to one. *)
Theorem C56_rate : forall c frames i p g fg p' g', config_ok c -> Forall (input_ok c) frames ->
  play c frames (start c, start_global c) = Done (p, g) -> step c i (p, g) = Done (fg, (p', g')) ->
  (rate p' = 1 /\ scaling c = true) \/ low_cap g <= rate p' <= up_cap g.
Proof.
  intros c frames i p g fg p' g' K F H St. apply (play_inv c K frames 0) in H; auto; [ | lia | apply inv_start ].
  eapply step_rate; eauto. apply (i_caps _ _ _ H).
Qed.
Print Assumptions C56_rate.

(* The only faults: a window of moving averages below 4 frames, a mean difference between the averages of at least 64, and more than
   5441 frames. *)
Theorem C56_faults : forall c frames f, config_ok c -> Forall (input_ok c) frames -> play c frames (start c, start_global c) = Fault f ->
  (f = NoFrame /\ (window c < 4)%Z) \/ (f = Shift32 /\ scaling c = true /\ Exists (fun i => 64 <= diff_ratio i) frames) \/
  (f = Shift64 /\ (5441 < Z.of_nat (length frames))%Z).
Proof. intros c frames f K F H. apply (play_fault c K frames 0) in H; auto; [ lia | apply inv_start ]. Qed.
Print Assumptions C56_faults.

(* Each of these happens. With the default parameters, a pixel which blinks for long and then turns foreground shifts a 64-bit number by
   64, as nothing bounds its distance factor. *)
Theorem C56_shift_refuted : exists frames, Forall (input_ok default) frames /\
  play default frames (start default, start_global default) = Fault Shift64 /\ length frames = Z.to_nat 6626.
Proof.
  exists history. split; [ exact history_ok | split; [ exact history_fault | ] ]. vm_compute. reflexivity.
Qed.
Print Assumptions C56_shift_refuted.

(* A window of less than four frames is accepted by the constructor, and divides by zero at the first frame. *)
Theorem C56_window_refuted : forall c frames, (0 <= window c < 4)%Z -> frames <> [] -> play c frames (start c, start_global c) = Fault NoFrame.
Proof. exact no_window. Qed.
Print Assumptions C56_window_refuted.

(* Switching the lights on after a hundred frames shifts a 32-bit number by more than 31 forty frames later, for every image size. *)
Theorem C56_lights_refuted : forall g m, (0 < m)%nat ->
  global_step bright (color_diff_ratio bright (repeat [lights; lights; lights] m)) g = Fault Shift32.
Proof. exact lights_fault. Qed.
Print Assumptions C56_lights_refuted.

(* A pixel is background exactly when enough samples are similar to it, as long as the distance factor is below 61. *)
Theorem C56_decision : forall c frames i p g fg s', config_ok c -> (desc_offset c < 2 ^ 60)%Z -> Forall (input_ok c) frames -> input_ok c i ->
  play c frames (start c, start_global c) = Done (p, g) -> radius p <= 61 -> step c i (p, g) = Done (fg, s') ->
  (fg = false <-> at_least (required c) (similar c (radius p) (unstable p)) (samples i)).
Proof.
  intros c frames i p g fg s' K D F I H R St. apply (play_inv c K frames 0) in H; auto; [ | lia | apply inv_start ].
  eapply decision; eauto; [ apply (i_radius _ _ _ H) | ]. unfold shift_amount. apply (Z.le_lt_trans _ (Qfloor (61 + (1 # 2)))); [ | reflexivity ].
  apply Qfloor_resp_le. lra.
Qed.
Print Assumptions C56_decision.

(* Whatever the distance factor has become, a pixel with enough samples identical to it is background. *)
Theorem C56_identical : forall c frames i p g fg s', config_ok c -> Forall (input_ok c) frames ->
  play c frames (start c, start_global c) = Done (p, g) -> at_least (required c) same (samples i) -> step c i (p, g) = Done (fg, s') -> fg = false.
Proof.
  intros c frames i p g fg s' K F H A St. apply (play_inv c K frames 0) in H; auto; [ | lia | apply inv_start ].
  eapply identical; eauto. apply (i_radius _ _ _ H).
Qed.
Print Assumptions C56_identical.

(* Closer samples never turn a background pixel into foreground. *)
Theorem C56_monotone : forall c i i' p g g' fg fg' s s', Forall2 closer (samples i) (samples i') ->
  step c i (p, g) = Done (fg, s) -> step c i' (p, g') = Done (fg', s') -> fg' = false -> fg = false.
Proof. exact monotone. Qed.
Print Assumptions C56_monotone.

(* ---- PBAS *)

(* The variables of a pixel stay within bounds at all times. The update rate is within 2 and 200, or between these and its initial value;
   the distance factor is bounded, and never gets near its nominal upper limit of 99. *)
Theorem C56_pbas_bounds : forall c init frames, (0 < Pbas.samples c)%nat -> Forall (Forall (fun d => 0 <= d)) frames ->
  let p := Pbas.play c frames (Pbas.start init) in
  0 <= Pbas.mean p <= 1 /\ (57 # 100) < Pbas.radius p <= (588 # 100) /\ Qmin 2 init <= Pbas.rate p <= Qmax 200 init.
Proof. intros c init frames N F p. destruct (Proofs.Pbas.play_inv c init N frames _ F (Proofs.Pbas.inv_start init)). auto. Qed.
Print Assumptions C56_pbas_bounds.

(* The number given to the modulo of the update lottery is never zero. *)
Theorem C56_pbas_lottery : forall c init frames dists fg k p', (0 < Pbas.samples c)%nat -> 0 < init -> Forall (Forall (fun d => 0 <= d)) frames ->
  Pbas.step c dists (Pbas.play c frames (Pbas.start init)) = (fg, k, p') -> (1 <= k)%Z.
Proof.
  intros c init frames dists fg k p' N I F. pose proof (Proofs.Pbas.rate_positive c init frames N F I) as P. revert P. generalize (Pbas.play c frames (Pbas.start init)). intros p P.
  unfold Pbas.step. destruct (Pbas.scan _ _ _ _ _). intros E. injection E as _ <- _. exact P.
Qed.
Print Assumptions C56_pbas_lottery.

(* A pixel is background exactly when enough distances, cut at 255, are within the threshold of the pixel. *)
Theorem C56_pbas_decision : forall c dists p fg k p', Pbas.step c dists p = (fg, k, p') ->
  (fg = false <-> at_least (Pbas.required c) (fun d => Qmin d 255 <= Pbas.radius p * inject_Z (Pbas.threshold c)) dists).
Proof. exact Proofs.Pbas.pbas_decision. Qed.
Print Assumptions C56_pbas_decision.

(* Steady foreground slows the updates of a pixel down by at least 1/256 per frame to the cap, steady background speeds them up. *)
Theorem C56_pbas_steady : forall c (b : bool) frames p, (0 < Pbas.samples c)%nat -> Forall (Forall (fun d => 0 <= d)) frames ->
  0 <= Pbas.mean p <= 1 -> 2 <= Pbas.rate p <= 200 -> Spec.Pbas.always c b frames p ->
  let n := inject_Z (Z.of_nat (length frames)) in
  if b then Qmin 200 (Pbas.rate p + n * (1 # 256)) <= Pbas.rate (Pbas.play c frames p)
  else Pbas.rate (Pbas.play c frames p) <= Qmax 2 (Pbas.rate p - n * (1 # 5120)).
Proof. intros c b frames p N F M [T T'] A. apply Proofs.Pbas.steady; auto. Qed.
Print Assumptions C56_pbas_steady.

(* ---- Examples *)

(* SuBSENSE, a foreground frame and then a background one, with three samples *)
Definition ex_video : list input := [shown [far; far; far]; shown [near; near; far]].
Example C56_ex : Forall (input_ok default) ex_video /\
  (exists p g, play default ex_video (start default, start_global default) = Done (p, g) /\ radius p == 2391 # 2000 /\ rate p == 4 /\ frame_no g = 2%Z) /\
  at_least 2 same [near; near; far] /\ ~ at_least 3 same [near; near; far] /\ Forall2 closer [near; near] [near; far].
Proof.
  split; [ | split; [ | split; [ | split ] ] ].
  - unfold ex_video. apply Forall_cons; [ | apply Forall_cons; [ | apply Forall_nil ] ]; apply shown_ok; repeat (apply Forall_cons; [ auto | ]); apply Forall_nil.
  - eexists. eexists. split; [ vm_compute; reflexivity | repeat split; vm_compute; reflexivity ].
  - exists [0; 1]%nat. split; [ repeat constructor; cbn; intuition congruence | split; [ reflexivity | ] ].
    intros j [ <- | [ <- | [] ] ]; exists near; (split; [ reflexivity | apply Forall_cons; [ reflexivity | apply Forall_nil ] ]).
  - intros H. apply (at_least_filter (fun s => match s with [(0, 0)%Z] => true | _ => false end)) in H; [ cbn in H; lia | ].
    intros x [ <- | [ <- | [ <- | [] ] ] ]; cbn; (split; [ intros HH; try discriminate HH; repeat (apply Forall_cons; [ reflexivity | ]); apply Forall_nil | intros S; inversion S; subst; auto; discriminate ]).
  - repeat (apply Forall2_cons; [ | try apply Forall2_nil ]); repeat (apply Forall2_cons; [ | try apply Forall2_nil ]); cbn; lia.
Qed.

(* PBAS, with the default threshold, on two foreground frames *)
Definition pbas_default : Pbas.config := {| Pbas.threshold := 30; Pbas.samples := 3; Pbas.required := 2 |}.
Example C56_ex_pbas : Spec.Pbas.always pbas_default true [[200; 200; 0]; [200; 200; 0]] (Pbas.start 16) /\
  Pbas.rate (Pbas.play pbas_default [[200; 200; 0]; [200; 200; 0]] (Pbas.start 16)) == 18 /\
  fst (fst (Pbas.step pbas_default [10; 200; 0] (Pbas.start 16))) = false.
Proof. vm_compute. auto. Qed.
