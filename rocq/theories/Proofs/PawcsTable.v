From Coq Require Import ZArith QArith Qround List Bool Lia Lqa.
From Verif Require Import Lib.Grid Model.Sampling Model.Lbsp Model.RoiTable Spec.Lbsp Model.Lobster Spec.Lobster Model.WordDict Model.Pawcs Spec.Pawcs.
From Verif Require Model.Subsense Proofs.Lbsp Proofs.SubsenseRun Proofs.WordDict Proofs.Pawcs Proofs.PawcsFrame Proofs.PawcsReach.
Import ListNotations.
Open Scope Z_scope.

(* ------------------------------------------------------------------ thresholds of textures *)
Definition first_of (c : config) (t : Z) : Z := sat_uchar (half_even (if ch c =? 1 then (inject_Z t * rel c + inject_Z (offset c)) / 3 else inject_Z t * rel c + inject_Z (offset c))%Q).
Lemma first_is c t : SubsenseFrame.first_lut (sub c) t = first_of c t. Proof. reflexivity. Qed.
Lemma least_is c t : least c t = sat_uchar (half_even ((inject_Z t * rel c + inject_Z (offset c)) / 4)%Q).
Proof. unfold least. f_equal. apply Proofs.Lbsp.half_even_comp. unfold Qdiv. ring. Qed.
Lemma most_is c : SubsenseFrame.most (sub c) = sat_uchar (half_even (255 * rel c + inject_Z (offset c))%Q).
Proof. unfold SubsenseFrame.most. f_equal. cbn [SubsenseFrame.offset SubsenseFrame.rel sub]. apply Proofs.Lbsp.half_even_comp. ring. Qed.
Definition bounded (c : config) (f : Z -> Z) : Prop := forall t, 0 <= t <= 255 -> Z.min (first_of c t) (least c t) <= f t <= Z.max (first_of c t) (SubsenseFrame.most (sub c)).
Lemma bounded_table c f : bounded c f -> table c f.
Proof. intros H t Ht. cbv zeta. specialize (H t Ht). rewrite least_is, most_is in H. exact H. Qed.
Lemma bounded_byte c f t : bounded c f -> 0 <= t <= 255 -> 0 <= f t <= 255.
Proof.
  intros H Ht. specialize (H t Ht). pose proof (SubsenseRun.sat_range (half_even (if ch c =? 1 then (inject_Z t * rel c + inject_Z (offset c)) / 3 else inject_Z t * rel c + inject_Z (offset c))%Q)) as A. fold (first_of c t) in A.
  pose proof (SubsenseRun.sat_range (half_even ((inject_Z (offset c) + inject_Z t * rel c) / 4)%Q)) as B. fold (least c t) in B. pose proof (SubsenseRun.sat_range (half_even (inject_Z (offset c) + 255 * rel c)%Q)) as D. change (sat_uchar (half_even (inject_Z (offset c) + 255 * rel c)%Q)) with (SubsenseFrame.most (sub c)) in D. lia.
Qed.
Lemma least_byte c t : 0 <= least c t <= 255. Proof. apply SubsenseRun.sat_range. Qed.
Lemma most_byte c : 0 <= SubsenseFrame.most (sub c) <= 255. Proof. apply SubsenseRun.sat_range. Qed.
Lemma adapt_entry c x y f t : bounded c f -> 0 <= t <= 255 ->
  adapt c x y f t = f t \/ (adapt c x y f t = f t - 1 /\ least c t <= f t - 1) \/ (adapt c x y f t = f t + 1 /\ f t + 1 <= SubsenseFrame.most (sub c)).
Proof.
  intros H Ht. pose proof (bounded_byte c f t H Ht). pose proof (least_byte c t). pose proof (most_byte c). unfold adapt. destruct (_ && _).
  - destruct (Z.ltb_spec (least c t) (f t)); auto. rewrite SubsenseRun.wrap8_id by lia. right. left. lia.
  - destruct (_ && _); auto. destruct (Z.ltb_spec (f t) (SubsenseFrame.most (sub c))); auto. rewrite SubsenseRun.wrap8_id by lia. right. right. lia.
Qed.
Lemma bounded_adapt c x y f : bounded c f -> bounded c (adapt c x y f).
Proof. intros H t Ht. pose proof (H t Ht). destruct (adapt_entry c x y f t H Ht) as [->|[(-> & A)|(-> & A)]]; lia. Qed.
Lemma least_mono (c : config) t t' : (0 <= rel c)%Q -> t <= t' -> least c t <= least c t'.
Proof.
  intros R H. unfold least. apply SubsenseRun.sat_mono, Proofs.Lbsp.half_even_mono. unfold Qdiv. change (/ 4)%Q with (1 # 4)%Q. assert (E : (inject_Z t <= inject_Z t')%Q) by now rewrite <- Zle_Qle. nra.
Qed.
Lemma adapt_monotone (c : config) x y f : (0 <= rel c)%Q -> bounded c f -> SubsenseRun.monotone f -> SubsenseRun.monotone (adapt c x y f).
Proof.
  intros R T M t t' H1 H2 H3. specialize (M t t' H1 H2 H3). pose proof (bounded_byte c f t T ltac:(lia)). pose proof (bounded_byte c f t' T ltac:(lia)). pose proof (least_mono c t t' R H2). pose proof (most_byte c). pose proof (least_byte c t).
  unfold adapt. destruct (_ && _).
  - destruct (Z.ltb_spec (least c t) (f t)), (Z.ltb_spec (least c t') (f t')); rewrite ?SubsenseRun.wrap8_id by lia; lia.
  - destruct (_ && _); auto. destruct (Z.ltb_spec (f t) (SubsenseFrame.most (sub c))), (Z.ltb_spec (f t') (SubsenseFrame.most (sub c))); rewrite ?SubsenseRun.wrap8_id by lia; lia.
Qed.

Lemma apply_lut c rnd ov r a b sc img st m st' : apply c rnd ov r a b sc img st = Done (m, st') -> exists x y, lut (lev st') = adapt c x y (lut (lev st)).
Proof.
  unfold apply. destruct (Subsense.factor _ _) as [al|]; [| discriminate ]. destruct (Subsense.factor _ _) as [as_|]; [| discriminate ].
  destruct (each _ _ _) as [[[out f0] s]| | |]; cbn [obind]; try discriminate. cbv zeta. destruct (each (age_word _ _ _ _) _ _) as [g| | |]; cbn [obind]; try discriminate.
  match goal with |- obind ?o _ = _ -> _ => destruct o as [o'| | |]; cbn [obind]; try discriminate end. destruct (frame_level _ _ _ _ _ _ _ _) as [s2| | |] eqn:FL; cbn [obind]; try discriminate.
  intros E. injection E as <- <-. destruct (PawcsFrame.frame_level_keeps _ _ _ _ _ _ _ _ _ FL) as (_ & K & _). rewrite K. cbn [lev lut]. eexists _, _. reflexivity.
Qed.
Lemma act_lut c rnd sc e st st' : act c rnd sc e st = Done st' -> lut (lev st') = lut (lev st) \/ exists x y, lut (lev st') = adapt c x y (lut (lev st)).
Proof.
  destruct e as [img ov r a b|base frac force]; cbn [act].
  - destruct (apply _ _ _ _ _ _ _ _ _) as [[m s]| | |] eqn:E; cbn [obind]; try discriminate. intros X. injection X as <-. right. exact (apply_lut _ _ _ _ _ _ _ _ _ _ _ E).
  - intros X. apply PawcsFrame.refresh_rest in X. left. now rewrite (proj2 X).
Qed.
Lemma play_lut c rnd sc (P : (Z -> Z) -> Prop) : (forall f x y, P f -> P (adapt c x y f)) -> forall l st st', P (lut (lev st)) -> play c rnd sc l st = Done st' -> P (lut (lev st')).
Proof.
  intros H. induction l as [|e l IH]; intros st st' HP; cbn [play]; [ intros E; injection E as <-; exact HP |]. destruct (act c rnd sc e st) as [s| | |] eqn:E; try discriminate; [| apply IH; exact HP ].
  apply IH. destruct (act_lut _ _ _ _ _ _ E) as [->|(x & y & ->)]; auto.
Qed.
Lemma initialize_lut c rnd old cur given sz img sc st : initialize c rnd old cur given sz img = Done (sc, st) -> lut (lev st) = SubsenseFrame.first_lut (sub c).
Proof.
  unfold initialize. destruct (initialize_roi _ _ _ _ _) as [r|]; [| discriminate ]. cbv zeta. destruct (access _); cbn [obind]; try discriminate. destruct (_ || _); [ discriminate |].
  destruct (refreshModel _ _ _ _ _ _ _) as [s| | |] eqn:E; cbn [obind]; try discriminate. intros X. injection X as <- <-. apply PawcsFrame.refresh_rest in E. now rewrite (proj2 E).
Qed.
Lemma reached_lut c rnd sz img sc l st : reached c rnd sz img sc l st -> bounded c (lut (lev st)) /\ ((0 <= rel c)%Q -> SubsenseRun.monotone (lut (lev st))).
Proof.
  intros (st0 & (_ & _ & _ & au & u & cur & given & E) & _ & _ & P). apply initialize_lut in E. split.
  - apply (play_lut c rnd sc (bounded c) (fun f x y => bounded_adapt c x y f) l st0 st); [| exact P ]. rewrite E. intros t Ht. rewrite first_is. lia.
  - intros R. apply (play_lut c rnd sc (fun f => bounded c f /\ SubsenseRun.monotone f)) with (l := l) (st := st0) (st' := st); [| | exact P ].
    + intros f x y [H1 H2]. split; [ apply bounded_adapt; exact H1 | apply adapt_monotone; assumption ].
    + rewrite E. split; [ intros t Ht; rewrite first_is; lia |]. intros t t' _ H _. apply SubsenseRun.first_mono; [ exact R | exact H ].
Qed.

(* ------------------------------------------------------------------ what is kept for pixels *)
Lemma pixel_bounds n p : Pawcs.pixel_ok n p -> in_bounds n p.
Proof.
  intros [H1 H2 H3 H4]. unfold Pawcs.boost in *. split; [ exact H1 | exact H2 | | exact H4 ]. destruct H3 as [A B]. split; [ exact A |]. unfold Qdiv. change (/ 100)%Q with (1 # 100)%Q. lra.
Qed.

(* ------------------------------------------------------------------ a learning rate of 2^63 *)
Definition zones (i : Z) : Z := (if i mod 8 <? 4 then 0 else 80) + (if i / 8 <? 4 then 0 else 160).
Definition draw (n : nat) : Z := if Z.of_nat n <? 1568 then PawcsReach.lcg n else 0.
Definition quarters : outcome (scene * state) := initialize PawcsReach.grey_config draw (nothing no_word, nothing no_gword, true, O) None None (8, 8) zones.
Lemma quarters_def : quarters = initialize PawcsReach.grey_config draw (nothing no_word, nothing no_gword, true, O) None None (8, 8) zones. Proof. reflexivity. Qed.
Lemma zones_bytes : byte_image zones. Proof. intros i. unfold zones. destruct (_ <? _), (_ <? _); lia. Qed.
Lemma quarters_begun sc st : quarters = Done (sc, st) -> begun PawcsReach.grey_config draw (8, 8) zones sc st.
Proof.
  rewrite quarters_def. intros E. split; [ exact PawcsReach.grey_usable |]. split; [ intros k; unfold draw; destruct (_ <? _); [ apply PawcsReach.lcg_pos | lia ] |]. split; [ exact zones_bytes |]. exists true, O, None, None. exact E.
Qed.
Definition stuck (sc : scene) (st : state) : bool := match apply PawcsReach.grey_config draw (2 ^ 63) 0 0 0 sc zones st with Fault Modulo => true | _ => false end.
Lemma stuck_split sc st : stuck sc st = true -> apply PawcsReach.grey_config draw (2 ^ 63) 0 0 0 sc zones st = Fault Modulo.
Proof. unfold stuck. destruct (apply _ _ _ _ _ _ _ _ _) as [| | |f]; try discriminate. destruct f; try discriminate. reflexivity. Qed.
Lemma quarters_stuck : PawcsReach.tested stuck quarters = true. Proof. vm_compute. reflexivity. Qed.
Lemma override_stuck : exists c rnd sc st, reached c rnd (8, 8) zones sc [] st /\ apply c rnd (2 ^ 63) 0 0 0 sc zones st = Fault Modulo.
Proof.
  destruct (PawcsReach.tested_of _ _ quarters_stuck) as (sc & st & Es & Eb). exists PawcsReach.grey_config, draw, sc, st. split; [| apply stuck_split; exact Eb ].
  exists st. split; [ exact (quarters_begun _ _ Es) | split; [ cbn; lia | split; [ constructor | reflexivity ] ] ].
Qed.
