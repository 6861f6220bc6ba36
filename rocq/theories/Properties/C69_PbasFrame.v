(* C69: PBAS stores what it saw, pixel by pixel, but also what it calls foreground. *)
From Coq Require Import ZArith QArith Qround Qminmax List Bool Lia Lqa.
From Verif Require Import Lib.Grid Spec.Vibe Model.Vibe Spec.Subsense Model.Pbas Model.PbasFrame Spec.PbasFrame Proofs.PbasFrame.
From Verif Require Proofs.Pbas Proofs.LearningRate.
From Verif Require Import Spec.Vibe Model.Pbas Model.PbasFrame.
Import ListNotations.
Open Scope Z_scope.

(* A frame is processed within the buffers exactly when its rows follow each other without gap (or there is one row, or colours are used):
   apply accepts any image of the right size and type, initialize checks for gaps. *)
Theorem C69_defined : forall c rnd size f st, (forall k, 0 <= rnd k) -> (0 < samples (loop c))%nat -> rooted (mode_of c) ->
  0 < fst size -> 0 < snd size -> fst size <= stride f -> (apply c rnd size f st = None <-> ~ gapless (mode_of c) size f).
Proof. intros c rnd size f st Hr Hn Ro. exact (defined c rnd size Hr Hn Ro f st). Qed.
Print Assumptions C69_defined.

(* A grey pixel is background exactly when enough of its samples, as they are when it is reached, are near. *)
Theorem C69_decision : forall c rnd size f st p, (forall k, 0 <= rnd k) -> (0 < samples (loop c))%nat -> mode_of c = Grey -> gapless Grey size f -> in_image size p ->
  exists m st' pre post m1 st1 fg, apply c rnd size f st = Some (m, st') /\ raster size = pre ++ p :: post /\
    apply_pixels c rnd size f pre {| bg := bg st; fb := fb st; norm := norm st; gsum := 0; bads := 1; used := used st |} = Some (m1, st1) /\
    (forall b, In (p, b) m <-> b = fg) /\
    (grey_pixel (value f p, grad f p) -> (forall s, (s < samples (loop c))%nat -> grey_pixel (bg st1 s (flat size p))) ->
     (fg = false <-> at_least (required (loop c)) (fun s => apart (norm st) (value f p, grad f p) (bg st1 s (flat size p)) <=
                                radius (fb st (flat size p)) * inject_Z (threshold (loop c)))%Q (seq 0 (samples (loop c))))).
Proof. exact decision. Qed.
Print Assumptions C69_decision.

(* After any video every sample is an observation, value and gradient together: of the initial image at most 3 pixels away, or of the pixel itself in a frame. *)
Theorem C69_observed : forall c rnd size first frames s p, (forall k, 0 <= rnd k) -> (0 < samples (loop c))%nat -> rooted (mode_of c) ->
  Forall (gapless (mode_of c) size) frames -> (s < samples (loop c))%nat -> in_image size p ->
  exists st, play c rnd size frames (initialize c rnd size first) = Some st /\ observed size first frames p (bg st s (flat size p)).
Proof.
  intros c rnd size first frames s p Hr Hn Ro G Hs Hp. destruct (play_defined c rnd size Hr Hn Ro frames (initialize c rnd size first) G) as (st & E).
  exists st. split; auto. destruct (past_run c rnd size Hr Hn Ro first frames st G E) as [_ B _]. auto.
Qed.
Print Assumptions C69_observed.

(* A frame changes a sample only through a background pixel at most one pixel away, to what is seen at the place of the sample;
   a frame all in the foreground changes none. *)
Theorem C69_updates : forall c rnd size f st, (forall k, 0 <= rnd k) -> (0 < samples (loop c))%nat -> rooted (mode_of c) -> gapless (mode_of c) size f ->
  exists m st', apply c rnd size f st = Some (m, st') /\ map fst m = raster size /\
    (forall s i, bg st' s i = bg st s i \/
      ((s < samples (loop c))%nat /\ exists q p, In (q, false) m /\ in_image size p /\ within 1 p q /\ i = flat size p /\ bg st' s i = (value f p, grad f p))) /\
    ((forall p fg, In (p, fg) m -> fg = true) -> bg st' = bg st /\ used st' = used st).
Proof.
  intros c rnd size f st Hr Hn Ro G. destruct (frame_run c rnd size Hr Hn Ro f st G) as (m & st' & A & _ & st1 & R & _ & B & _ & U).
  exists m, st'. split; auto. split; [ apply (r_points _ _ _ _ _ _ _ R) | ]. rewrite B, U. split; [ apply (r_bg _ _ _ _ _ _ _ R) | apply (r_fg _ _ _ _ _ _ _ R) ].
Qed.
Print Assumptions C69_updates.

(* A learning rate that is given decides alone: nothing is stored when no random number is a multiple of it, and with 1 every background pixel is stored. *)
Theorem C69_override : forall c rnd size f st m st', (forall k, 0 <= rnd k) -> (0 < samples (loop c))%nat -> apply c rnd size f st = Some (m, st') ->
  (forall r, override f = Some r -> (forall k, rnd k mod r <> 0) -> bg st' = bg st) /\
  (override f = Some 1 -> gapless (mode_of c) size f -> forall p, In (p, false) m -> exists s, (s < samples (loop c))%nat /\ bg st' s (flat size p) = (value f p, grad f p)).
Proof.
  intros c rnd size f st m st' Hr Hn E. split.
  - intros r O H. exact (LearningRate.pbas_kept c rnd size f r st m st' O H E).
  - intros O G. exact (LearningRate.pbas_stored c rnd size Hr Hn f st m st' G O E).
Qed.
Print Assumptions C69_override.
(* 7 is odd, so with a rate of 2 nothing is stored; with a rate of 1 it is *)
Example C69_ex_override : let c := {| mode_of := Grey; loop := {| threshold := 30; samples := 3; required := 2 |}; first_rate := 16 |} in
  let f r v := {| value := fun _ => [v]; grad := fun _ => [0]; stride := 2; override := Some r |} in
  let st r := match apply c (fun _ => 7) (2, 2) (f r 105) (initialize c (fun _ => 7) (2, 2) (f 1 100)) with Some x => map (fun s => bg (snd x) s 0) [0; 1; 2]%nat | None => [] end in
  st 2 = [([100], [0]); ([100], [0]); ([100], [0])] /\ st 1 = [([100], [0]); ([105], [0]); ([100], [0])].
Proof. vm_compute. split; reflexivity. Qed.

(* That pixel need not be the one that is stored: a pixel found to be foreground enters its own background model in the same frame. *)
Theorem C69_foreground_kept_out_refuted : exists c rnd size first f m st' p s,
  (forall k, 0 <= rnd k) /\ (0 < samples (loop c))%nat /\ (s < samples (loop c))%nat /\ gapless (mode_of c) size f /\ in_image size p /\
  apply c rnd size f (initialize c rnd size first) = Some (m, st') /\ In (p, true) m /\
  bg st' s (flat size p) = (value f p, grad f p) /\ bg (initialize c rnd size first) s (flat size p) <> (value f p, grad f p).
Proof.
  set (c := {| mode_of := Grey; loop := {| threshold := 30; samples := 3; required := 2 |}; first_rate := 16 |}).
  set (f0 := {| value := fun _ => [100]; grad := fun _ => [0]; stride := 2; override := None |}).
  set (f1 := {| value := fun q => if fst q =? 0 then [200] else [100]; grad := fun _ => [0]; stride := 2; override := None |}).
  exists c, (fun _ => 0), (2, 1), f0, f1, [((0, 0), true); ((1, 0), false)].
  eexists. exists (0, 0), 0%nat. split; [ intros; lia | split; [ cbn; lia | split; [ cbn; lia | split; [ intros _; left; reflexivity | split; [ split; cbn; lia | ] ] ] ] ].
  split; [ vm_compute; reflexivity | ]. split; [ left; reflexivity | ]. split; [ vm_compute; reflexivity | vm_compute; discriminate ].
Qed.
Print Assumptions C69_foreground_kept_out_refuted.

(* The mean gradient difference used as a normaliser stays between 20 and the greatest distance. *)
Theorem C69_normaliser : forall c rnd size first frames st, (forall k, 0 <= rnd k) -> (0 < samples (loop c))%nat -> rooted (mode_of c) ->
  Forall (gapless (mode_of c) size) frames -> play c rnd size frames (initialize c rnd size first) = Some st -> (20 <= norm st <= longest (mode_of c))%Q.
Proof. intros c rnd size first frames st Hr Hn Ro G P. destruct (past_run c rnd size Hr Hn Ro first frames st G P). auto. Qed.
Print Assumptions C69_normaliser.

(* Each pixel runs the feedback loop of C56 on non-negative distances, one list of them per frame: all that is shown there holds of it. *)
Theorem C69_feedback : forall c rnd size first frames st p, (forall k, 0 <= rnd k) -> (0 < samples (loop c))%nat -> rooted (mode_of c) ->
  Forall (gapless (mode_of c) size) frames -> play c rnd size frames (initialize c rnd size first) = Some st -> in_image size p ->
  (exists ds, length ds = length frames /\ Forall (Forall (fun d => 0 <= d)%Q) ds /\ fb st (flat size p) = Pbas.play (loop c) ds (start (first_rate c))) /\
  ((57 # 100) < radius (fb st (flat size p)) <= (588 # 100))%Q /\ ((0 < first_rate c)%Q -> 1 <= Qceiling (rate (fb st (flat size p)))).
Proof.
  intros c rnd size first frames st p Hr Hn Ro G P Hp. destruct (past_run c rnd size Hr Hn Ro first frames st G P) as [_ _ F].
  destruct (F p Hp) as (ds & L & D & E). split; [ exists ds; auto | ]. rewrite E. split.
  - destruct (Proofs.Pbas.play_inv (loop c) (first_rate c) Hn ds _ D (Proofs.Pbas.inv_start _)). auto.
  - apply Proofs.Pbas.rate_positive; auto.
Qed.
Print Assumptions C69_feedback.

(* A grey pixel near to everything observed so far is background, whatever the random numbers and the feedback. *)
Theorem C69_familiar : forall c rnd size first frames st f m st' p fg, (forall k, 0 <= rnd k) -> (0 < samples (loop c))%nat -> (required (loop c) <= samples (loop c))%nat ->
  mode_of c = Grey -> 0 <= threshold (loop c) -> Forall (gapless Grey size) (frames ++ [f]) ->
  play c rnd size frames (initialize c rnd size first) = Some st -> apply c rnd size f st = Some (m, st') ->
  grey_pixel (value f p, grad f p) ->
  (forall v, observed size first (frames ++ [f]) p v -> grey_pixel v /\
     (gap (value f p) (fst v) + gap (grad f p) (snd v) / 2 <= (57 # 100) * inject_Z (threshold (loop c)))%Q) ->
  In (p, fg) m -> fg = false.
Proof. exact familiar_grey. Qed.
Print Assumptions C69_familiar.

(* A still uniform scene never has any foreground. *)
Theorem C69_static : forall c rnd size first frames st f m st' p fg k g, (forall k, 0 <= rnd k) -> (0 < samples (loop c))%nat -> (required (loop c) <= samples (loop c))%nat ->
  rooted (mode_of c) -> 0 <= threshold (loop c) -> Forall (gapless (mode_of c) size) (frames ++ [f]) ->
  byte_pixel (match mode_of c with Grey => 1 | Colours _ => 3 end) k -> byte_pixel (match mode_of c with Grey => 1 | Colours _ => 3 end) g ->
  Forall (fun f => forall q, value f q = k /\ grad f q = g) (first :: frames ++ [f]) ->
  play c rnd size frames (initialize c rnd size first) = Some st -> apply c rnd size f st = Some (m, st') ->
  In (p, fg) m -> fg = false.
Proof. exact static. Qed.
Print Assumptions C69_static.

(* Two grey frames on a 2x2 image; the second one has a bright pixel. The same frame with a row gap is not processed within the buffers. *)
Definition ex_setup : setup := {| mode_of := Grey; loop := {| threshold := 30; samples := 3; required := 2 |}; first_rate := 16 |}.
Definition ex_frame (w : Z) (k : Z) : frame :=
  {| value := fun q => if (fst q =? 1) && (snd q =? 1) then [k] else [100]; grad := fun _ => [4]; stride := w; override := None |}.
Example C69_ex :
  let rnd := fun k => Z.of_nat (k * k) in
  gapless Grey (2, 2) (ex_frame 2 200) /\ ~ gapless Grey (2, 2) (ex_frame 3 200) /\
  (exists st, play ex_setup rnd (2, 2) [ex_frame 2 105] (initialize ex_setup rnd (2, 2) (ex_frame 2 110)) = Some st /\
     option_map (fun ms => map snd (fst ms)) (apply ex_setup rnd (2, 2) (ex_frame 2 200) st) = Some [false; false; false; true] /\
     apply ex_setup rnd (2, 2) (ex_frame 3 200) st = None) /\
  grey_pixel ([100], [4]) /\ (gap [100%Z] [110%Z] + gap [4%Z] [4%Z] / 2 <= (57 # 100) * 30)%Q.
Proof.
  cbv zeta. split; [ intros _; left; reflexivity | ]. split; [ intros H; destruct (H eq_refl) as [E|E]; cbn in E; lia | ].
  split; [ eexists; split; [ vm_compute; reflexivity | split; vm_compute; reflexivity ] | ].
  split; [ split; (split; [ reflexivity | apply Forall_cons; [ lia | constructor ] ]) | vm_compute; discriminate ].
Qed.
