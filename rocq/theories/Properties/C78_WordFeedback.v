(* C78: what PAWCS adapts from frame to frame stays within bounds: the update rates, variation modulators, radii and means of pixels, and the thresholds of
   textures; an update rate of 2^63, which the caller may ask for, divides by zero. *)
From Coq Require Import ZArith QArith List Bool Lia.
From Verif Require Import Lib.Grid Spec.Lbsp Model.Lobster Spec.Lobster Model.WordDict Model.Pawcs Spec.Pawcs.
From Verif Require Model.Subsense Proofs.Pawcs Proofs.PawcsFrame Proofs.SubsenseRun.
From Verif Require Proofs.PawcsMore.
From Verif Require Import Proofs.PawcsReach Proofs.PawcsTable.
Import ListNotations.
Open Scope Z_scope.

(* After n frames, whatever their images, the ratios of the frame-level component and the refreshes. *)
Theorem C78_bounds : forall c rnd sz img sc l st i, reached c rnd sz img sc l st -> In i (pxs sc) -> in_bounds (count_frames l) (px st i).
Proof. intros c rnd sz img sc l st i R I. destruct (reached_live _ _ _ _ _ _ _ R) as (_ & [L _] & F & _). apply pixel_bounds. rewrite <- F. exact (Pawcs.i_px _ _ _ _ L i I). Qed.
Print Assumptions C78_bounds.

(* Thresholds of textures are bytes between those of the beginning and the limits of their adaptation, grow with the colour, and change by one at most. *)
Theorem C78_table : forall c rnd sz img sc l st, reached c rnd sz img sc l st ->
  table c (lut (lev st)) /\ (forall t, 0 <= t <= 255 -> 0 <= lut (lev st) t <= 255) /\
  ((0 <= rel c)%Q -> forall t t', 0 <= t -> t <= t' -> t' <= 255 -> lut (lev st) t <= lut (lev st) t') /\
  (forall ov r a b f m st' t, apply c rnd ov r a b sc f st = Done (m, st') -> 0 <= t <= 255 -> Z.abs (lut (lev st') t - lut (lev st) t) <= 1) /\
  (forall base frac force st', refreshModel c rnd sc base frac force st = Done st' -> lut (lev st') = lut (lev st)).
Proof.
  intros c rnd sz img sc l st R. destruct (reached_lut _ _ _ _ _ _ _ R) as [T M]. split; [ apply bounded_table; exact T |]. split; [ intros t Ht; exact (bounded_byte _ _ t T Ht) |]. split; [ intros H; exact (M H) |]. split.
  - intros ov r a b f m st' t E Ht. destruct (apply_lut _ _ _ _ _ _ _ _ _ _ _ E) as (x & y & ->). destruct (adapt_entry c x y _ t T Ht) as [->|[(-> & _)|(-> & _)]]; lia.
  - intros base frac force st' E. apply PawcsFrame.refresh_rest in E. now rewrite (proj2 E).
Qed.
Print Assumptions C78_table.

(* Thresholds fall only when less than a tenth of the pixels had texture in two frames in a row, and grow only when more than half of them had. *)
Theorem C78_moves : forall c rnd sz img sc l st ov r a b f m st' t, reached c rnd sz img sc l st -> apply c rnd ov r a b sc f st = Done (m, st') -> 0 <= t <= 255 ->
  (lut (lev st') t < lut (lev st) t -> (nz (lev st) < 1 # 10 /\ nz (lev st') < 1 # 10)%Q) /\ (lut (lev st) t < lut (lev st') t -> (1 # 2 < nz (lev st) /\ 1 # 2 < nz (lev st'))%Q).
Proof.
  intros c rnd sz img sc l st ov r a b f m st' t R E T. apply (PawcsMore.table_moves c rnd ov r a b sc f st m st' t E); [| exact T ]. intros u U. destruct (reached_lut _ _ _ _ _ _ _ R) as [B _]. exact (bounded_byte _ _ u B U).
Qed.
Print Assumptions C78_moves.

(* A pixel blinks when its raw decision changed in this frame or in the last one, away from what is foreground in either. *)
Theorem C78_blinks : forall c rnd ov r a b sc img st m st', apply c rnd ov r a b sc img st = Done (m, st') -> forall i,
  (Subsense.last_raw (px st' i) = true <-> In (i, true) m) /\ (Subsense.last_blink (px st' i) = true <-> Subsense.last_raw (px st' i) <> Subsense.last_raw (px st i)) /\
  (Subsense.last_final (px st' i) = true <-> filtered c m i = true) /\ (Subsense.clear (px st' i) = true <-> grown c m i = false) /\
  (Subsense.blinks (px st' i) = true <-> (Subsense.last_blink (px st' i) = true \/ Subsense.last_blink (px st i) = true) /\ Subsense.clear (px st i) = true /\ Subsense.clear (px st' i) = true).
Proof.
  intros c rnd ov r a b sc img st m st' E i. apply PawcsMore.apply_more in E as (_ & _ & E). destruct (E i) as (E1 & E2 & E3 & E4 & E5). rewrite E5, E1, E2, E3, E4, <- PawcsMore.marked_spec.
  destruct (PawcsMore.marked m i), (Subsense.last_raw (px st i)), (Subsense.last_blink (px st i)), (Subsense.clear (px st i)), (filtered c m i), (grown c m i); cbn; intuition congruence.
Qed.
Print Assumptions C78_blinks.

(* A caller that asks for an update rate of 2^63: twice the rate is zero in 64 bits. *)
Theorem C78_override_refuted : exists c rnd sc st, reached c rnd (8, 8) zones sc [] st /\ apply c rnd (2 ^ 63) 0 0 0 sc zones st = Fault Modulo.
Proof. exact override_stuck. Qed.
Print Assumptions C78_override_refuted.

(* ---- an object after three frames and two refreshes *)
Example C78_ex_reached : exists sc st, reached grey_config lcg (8, 8) picture sc history st /\ In 18 (pxs sc) /\ count_frames history = 3.
Proof.
  assert (E : is_done (ran started) = true) by (vm_compute; reflexivity). assert (X : tested (fun sc _ => existsb (Z.eqb 18) (pxs sc)) started = true) by (vm_compute; reflexivity). destruct started as [[sc st0]| | |] eqn:Es; try discriminate E. cbn [ran] in E.
  destruct (play grey_config lcg sc history st0) as [st| | |] eqn:Ep; try discriminate E. exists sc, st. split; [| split; [| reflexivity ] ].
  - exists st0. split; [ exact (started_begun _ _ Es) | split; [ cbn; lia | split; [ exact history_allowed | exact Ep ] ] ].
  - cbn [tested] in X. apply existsb_exists in X. destruct X as (x & Ix & Ex). apply Z.eqb_eq in Ex. now subst x.
Qed.
