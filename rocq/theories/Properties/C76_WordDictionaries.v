(* C76: the dictionaries of PAWCS: whatever is done to an initialized object, every place of a dictionary has a word of its own, no pointer dangles and no
   access is outside; an object that is initialized again follows pointers to words that are no more. *)
From Coq Require Import ZArith QArith List Bool Lia Sorting.Permutation.
From Verif Require Import Lib.Grid Model.RoiTable Model.Lobster Spec.Lobster Model.WordDict Model.Pawcs Spec.Pawcs.
From Verif Require Model.Subsense Proofs.RoiTable Proofs.WordDict Proofs.Pawcs Proofs.PawcsFrame Proofs.PawcsRun Proofs.PawcsSpec.
From Verif Require Proofs.PawcsMore.
From Verif Require Import Proofs.PawcsReach.
Import ListNotations.
Open Scope Z_scope.

(* Initialization of a new object: refused if and only if the region is, an exception if a side is too small for the downscaled image, and otherwise all is well. *)
Theorem C76_initialize : forall c rnd auto0 u current given sz img, usable c -> (forall k, 0 <= rnd k) -> byte_image img ->
  let o := initialize c rnd (nothing no_word, nothing no_gword, auto0, u) current given sz img in
  match initialize_roi 2 current given (snd sz) (fst sz) with
  | None => o = Refused
  | Some r => if (fst sz <? 8) || (snd sz <? 8) then o = Thrown
              else exists sc st, o = Done (sc, st) /\ size sc = sz /\ (forall i, In i (pxs sc) <-> 0 <= i < fst sz * snd sz /\ data r i <> 0) /\
                     (forall i, roi sc i = data r i) /\ NoDup (pxs sc) /\ (forall i, In i (pxs sc) -> exists p, inner sz p /\ i = place sz p)
  end.
Proof.
  intros c rnd au u cur given sz img (Hk & Hm & Hg & Hc) Hr B o. pose proof (PawcsRun.initialize_ok c rnd Hr Hk Hm Hg Hc au u cur given sz img B) as H. fold o in H.
  destruct (initialize_roi 2 cur given (snd sz) (fst sz)) as [r|] eqn:ER; [| exact H ]. destruct ((fst sz <? 8) || (snd sz <? 8)); [ exact H |]. destruct H as (st & E & S & _).
  eexists. exists st. split; [ exact E |]. split; [ reflexivity |]. split; [| split; [ reflexivity | split; [ exact (Pawcs.sc_nodup _ S) | exact (Pawcs.sc_listed _ S) ] ] ].
  intros i. cbn [pxs]. destruct (RoiTable.away_all 2 cur given _ _ r ltac:(lia) ER) as (R & C & _). rewrite RoiTable.lut_in, R, C, (Z.mul_comm (snd sz)). reflexivity.
Qed.
Print Assumptions C76_initialize.

(* Whatever is done since, unless a shift amount gets too large, which takes thousands of frames. *)
Theorem C76_dictionaries : forall c rnd sz img sc st0 l, begun c rnd sz img sc st0 -> 8 <= avgs c -> Forall allowed l ->
  (play c rnd sc l st0 = Fault Shift64 /\ 4940 < count_frames l) \/
  exists st, play c rnd sc l st0 = Done st /\ frame (lev st) = count_frames l /\
    well_kept (dict st) (Z.of_nat (length (pxs sc)) * Z.of_nat (locals c)) /\ well_kept (glob st) (Z.of_nat (globals c)) /\
    (forall t w, 0 <= t < Z.of_nat (length (pxs sc)) * Z.of_nat (locals c) -> shown (dict st) t = Some w -> valid_word (ch c) (frame (lev st)) w) /\
    (forall i, Permutation (order st i) (zrange 0 (Z.of_nat (globals c)))) /\
    (forall i, 0 <= seen st i <= 255) /\ (forall i, 0 <= ldesc st i < 2 ^ 16).
Proof.
  intros c rnd sz img sc st0 l Bg Ha Al. destruct (begun_live _ _ _ _ _ _ Bg) as (S & L & F & Sz). destruct Bg as ((Hk & Hm & Hg & Hc) & Hr & _).
  pose proof (PawcsFrame.play_ok c rnd sc Hr Hk Hm Hg Hc S Ha l st0 Al) as H. rewrite F in H. specialize (H L).
  destruct (play c rnd sc l st0) as [st| | |f] eqn:E; cbn [Pawcs.safe] in H; try contradiction; [| destruct f; try contradiction; left; split; [ reflexivity | exact H ] ].
  right. destruct H as [[[I1 I2 [I3 I3'] [D1 D2 D3] I5 [G1 G2 G3] I7 I8 I9] _] H2]. exists st. split; [ reflexivity |]. split; [ exact H2 |].
  split; [ apply PawcsSpec.kept; [ exact D1 | exact D2 | apply Z.mul_nonneg_nonneg; lia | intros t Ht; apply I5; rewrite D2; exact Ht ] |]. split; [ apply PawcsSpec.kept; [ exact G1 | exact G2 | lia | intros t Ht; apply I7; lia ] |]. split; [| split; [ exact I8 | split; assumption ] ].
  intros t w Ht Ew. apply PawcsSpec.valid_of. eapply WordDict.cells_val; [ exact D1 | exact D3 | rewrite D2; exact Ht | exact Ew ].
Qed.
Print Assumptions C76_dictionaries.

(* Refreshing is refused if and only if the fraction is not between 0 and 1. *)
Theorem C76_refresh : forall c rnd sz img sc l st base frac force, reached c rnd sz img sc l st -> 0 <= base ->
  (refreshModel c rnd sc base frac force st = Refused /\ ~ (0 <= frac <= 1)%Q) \/
  ((0 <= frac <= 1)%Q /\ ((exists st', refreshModel c rnd sc base frac force st = Done st' /\ seen st' = seen st /\ px st' = px st /\ lev st' = lev st) \/
                          (refreshModel c rnd sc base frac force st = Fault Shift64 /\ 4940 < count_frames l))).
Proof.
  intros c rnd sz img sc l st base frac force R Hb. destruct (reached_live _ _ _ _ _ _ _ R) as (S & [[I1 I2 I3 I4 I5 I6 I7 I8 I9] _] & F & _). destruct R as (st0 & ((Hk & Hm & Hg & Hc) & Hr & _) & _).
  destruct (Pawcs.refreshModel_ok c rnd sc Hr Hk Hm Hg Hc S st base frac force (frame (lev st)) I1 I2 I3 I4 (or_introl I5) I6 (PawcsFrame.packed_full c Hm Hg _ (Pawcs.g_len _ _ I6) I7) I8 I9 Hb) as [[A B]|[A B]].
  - left. auto.
  - right. split; [ exact A |]. destruct (refreshModel c rnd sc base frac force st) as [st'| | |f]; cbn [Pawcs.safe] in B; try contradiction.
    + left. exists st'. destruct B as [_ (B1 & B2 & B3 & B4 & B5 & B6)]. auto.
    + destruct f; try contradiction. right. rewrite F in B. auto.
Qed.
Print Assumptions C76_refresh.

(* With fewer than 8 samples for averages, which the constructor accepts, short-term averages are over no frame for the first 500. *)
Theorem C76_few_samples : forall c rnd ov r a b sc img st, 0 <= avgs c < 8 -> 0 <= frame (lev st) < 500 -> apply c rnd ov r a b sc img st = Fault NoFrame.
Proof.
  intros c rnd ov r a b sc img st Ha Hf. unfold apply. rewrite (proj2 (Z.leb_le (frame (lev st) + 1) 500)) by lia. assert (E : avgs c / 2 / 4 = 0) by (rewrite Z.div_div by lia; apply Z.div_small; lia). rewrite E.
  assert (E2 : Subsense.factor (frame (lev st) + 1) 0 = None) by (unfold Subsense.factor; now rewrite Z.min_r by lia). rewrite E2. destruct (Subsense.factor (frame (lev st) + 1) (avgs c / 2)); reflexivity.
Qed.
Print Assumptions C76_few_samples.

(* What initialization sets, on a new object or not: all but the switch of automatic resets, which belongs to the caller. *)
Theorem C76_initialize_level : forall c rnd old cur given sz img sc st, initialize c rnd old cur given sz img = Done (sc, st) ->
  frame (lev st) = 0 /\ woff (lev st) = 1000 /\ moving (lev st) = false /\ auto (lev st) = snd (fst old) /\ since (lev st) = 0 /\ cool (lev st) = 0 /\ nz (lev st) = 0%Q.
Proof. exact PawcsMore.initialize_level. Qed.
Print Assumptions C76_initialize_level.

(* The blur of the map of a global word reads nothing but the map, and its values stay between zero and the greatest. *)
Theorem C76_maps : forall sc clear m m' a hi, 2 <= fst (size sc) -> 2 <= snd (size sc) ->
  ((forall b, 0 <= b < map_size sc -> m b = m' b) -> weaken sc clear m a = weaken sc clear m' a) /\
  ((forall b, 0 <= b < map_size sc -> (0 <= m b <= hi)%Q) -> (0 <= weaken sc clear m a <= hi)%Q).
Proof. intros sc clear m m' a hi W H. split; intros E; [ exact (PawcsMore.weaken_local sc clear m m' a W H E) | exact (PawcsMore.weaken_range sc clear m a hi W H E) ]. Qed.
Print Assumptions C76_maps.

(* The counters of illumination updates stay in 0..2. *)
Theorem C76_illumination : forall c rnd sz img sc l st i, reached c rnd sz img sc l st -> 0 <= illum st i <= 2.
Proof. exact PawcsMore.reached_illum. Qed.
Print Assumptions C76_illumination.

(* ---- an object *)
Example C76_ex_reached : exists sc st, reached grey_config lcg (8, 8) picture sc history st /\ count_frames history = 3 /\ length (pxs sc) = 16%nat.
Proof.
  assert (E : is_done (ran started) = true) by (vm_compute; reflexivity). destruct started as [[sc st0]| | |] eqn:Es; try discriminate E. cbn [ran] in E.
  destruct (play grey_config lcg sc history st0) as [st| | |] eqn:Ep; try discriminate E. exists sc, st. split; [| split; [ reflexivity |] ].
  - exists st0. split; [ exact (started_begun _ _ Es) | split; [ cbn; lia | split; [ exact history_allowed | exact Ep ] ] ].
  - assert (El : width started = 16%nat) by (vm_compute; reflexivity). rewrite Es in El. exact El.
Qed.
Example C76_ex_few : apply {| ch := 1; minc := 20; doff := 2; most := 4; globals := 2; avgs := 7; rel := 1 # 3; offset := 0; filtered := plain_mask; grown := plain_mask |} lcg 0 0 0 0
  {| size := (8, 8); roi := fun _ => 255; pxs := [] |} picture (with_lev {| frame := 41; woff := 1000; moving := false; auto := true; since := 0; cool := 0; lut := fun _ => 0; nz := 0 |}
    {| dict := nothing no_word; glob := nothing no_gword; order := fun _ => []; illum := fun _ => 0; used := O; seen := fun _ => 0; ldesc := fun _ => 0; px := fun _ => start; dil := fun _ => false;
       lev := {| frame := 0; woff := 0; moving := false; auto := true; since := 0; cool := 0; lut := fun _ => 0; nz := 0 |} |}) = Fault NoFrame.
Proof. apply C76_few_samples; cbn; lia. Qed.

(* An object that is initialized again keeps its pointers although its words are made anew: with an image of the same size an empty map of a global word is
   read, with a larger one a pointer to a word that is no more is followed. *)
Theorem C76_initialize_again_refuted : exists c rnd sz img sc st img', begun c rnd sz img sc st /\ byte_image img' /\
  initialize c rnd (dict st, glob st, auto (lev st), used st) None None sz img' = Fault Empty /\
  exists sz', initialize c rnd (dict st, glob st, auto (lev st), used st) None None sz' img' = Fault Dangling.
Proof.
  assert (E1 : after (fun _ st => initialize grey_config lcg (dict st, glob st, auto (lev st), used st) None None (8, 8) (fun _ => 77)) started = Fault Empty) by (vm_compute; reflexivity). assert (E2 : after (fun _ st => initialize grey_config lcg (dict st, glob st, auto (lev st), used st) None None (9, 8) (fun _ => 77)) started = Fault Dangling) by (vm_compute; reflexivity).
  destruct (after_two _ _ _ _ _ E1 E2 ltac:(discriminate)) as (sc & st & Es). rewrite Es in E1, E2. rewrite after_done in E1, E2.
  exists grey_config, lcg, (8, 8), picture, sc, st, (fun _ => 77). split; [ exact (started_begun _ _ Es) | split; [ intros i; lia | split; [ exact E1 | exists (9, 8); exact E2 ] ] ].
Qed.
Print Assumptions C76_initialize_again_refuted.
