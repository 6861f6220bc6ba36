(* What a learning rate given by the user does to PBAS, LOBSTER and SuBSENSE: the samples stay as they are unless a random number is a multiple of it. *)
From Coq Require Import ZArith QArith Qround List Bool Lia.
From Verif Require Import Lib.Grid Spec.Vibe Model.Sampling.
From Verif Require Model.Distances Model.Vibe Proofs.Vibe Model.Pbas Model.PbasFrame Spec.PbasFrame Proofs.PbasFrame Model.Lobster Model.Subsense Model.SubsenseFrame.
Import ListNotations.
Open Scope Z_scope.

Section Pbas.
  Import Model.Vibe Proofs.Vibe Model.Pbas Model.PbasFrame Spec.PbasFrame Proofs.PbasFrame.
  Context (c : setup) (rnd : nat -> Z) (size : Z * Z).
  Lemma pbas_pixel_kept f r st p fg st' : override f = Some r -> (forall k, rnd k mod r <> 0) -> apply_pixel c rnd size f st p = Some (fg, st') -> bg st' = bg st.
  Proof.
    intros O H. unfold apply_pixel. destruct (negb _); [ discriminate | ]. destruct (Pbas.step _ _ _) as [[fg0 rate] px]. destruct (too_far _ _ _ _ _ _) as [sum n]. destruct fg0.
    - intros E. injection E as _ <-. reflexivity.
    - rewrite O. cbn [used bg]. rewrite (proj2 (Z.eqb_neq _ _) (H (used st))). cbn [used bg]. rewrite (proj2 (Z.eqb_neq _ _) (H (S (used st)))). intros E. injection E as _ <-. reflexivity.
  Qed.
  Lemma pbas_pixels_kept f r : override f = Some r -> (forall k, rnd k mod r <> 0) -> forall l st m st', apply_pixels c rnd size f l st = Some (m, st') -> bg st' = bg st.
  Proof.
    intros O H. induction l as [|p l IH]; intros st m st'; cbn [apply_pixels]; [ intros E; injection E as _ <-; reflexivity | ].
    destruct (apply_pixel c rnd size f st p) as [[fg st1]|] eqn:E1; [ | discriminate ]. destruct (apply_pixels c rnd size f l st1) as [[m2 st2]|] eqn:E2; [ | discriminate ].
    intros E. injection E as _ <-. rewrite (IH _ _ _ E2). exact (pbas_pixel_kept _ _ _ _ _ _ O H E1).
  Qed.
  Lemma pbas_kept f r st m st' : override f = Some r -> (forall k, rnd k mod r <> 0) -> apply c rnd size f st = Some (m, st') -> bg st' = bg st.
  Proof.
    intros O H. unfold apply. destruct (apply_pixels _ _ _ _ _ _) as [[m1 s1]|] eqn:E; [ | discriminate ]. intros X. injection X as _ <-. cbn [bg]. exact (pbas_pixels_kept _ _ O H _ _ _ _ E).
  Qed.

  (* a rate of one: every background pixel is stored *)
  Context (Hrnd : forall k, 0 <= rnd k) (Hn : (0 < samples (loop c))%nat).
  Definition stored (f : frame) (st : state) (p : Z * Z) : Prop := exists s, (s < samples (loop c))%nat /\ bg st s (flat size p) = (value f p, grad f p).
  Lemma pick_lt k : (Z.to_nat (rnd k mod Z.of_nat (samples (loop c))) < samples (loop c))%nat.
  Proof. pose proof (Z.mod_pos_bound (rnd k) (Z.of_nat (samples (loop c))) ltac:(lia)). lia. Qed.
  Lemma stored_more f b b' s0 q p : in_image size p -> in_image size q -> b' = store b s0 (flat size q) (value f q, grad f q) ->
    (exists s, (s < samples (loop c))%nat /\ b s (flat size p) = (value f p, grad f p)) -> exists s, (s < samples (loop c))%nat /\ b' s (flat size p) = (value f p, grad f p).
  Proof.
    intros Hp Hq -> (s & Hs & E). exists s. split; auto. destruct (store_cases b s0 (flat size q) (value f q, grad f q) s (flat size p)) as [(X & _ & I)|X]; rewrite X; auto.
    apply flat_inj in I; auto. subst. reflexivity.
  Qed.
  Lemma pbas_pixel_stored f st p fg st' : gapless (mode_of c) size f -> override f = Some 1 -> in_image size p -> apply_pixel c rnd size f st p = Some (fg, st') ->
    (fg = false -> stored f st' p) /\ (forall p', in_image size p' -> stored f st p' -> stored f st' p').
  Proof.
    intros G O Hp. unfold apply_pixel. rewrite (offset_flat _ _ _ _ G Hp). destruct (negb _); [ discriminate | ]. destruct (Pbas.step _ _ _) as [[fg0 rate] px]. destruct (too_far _ _ _ _ _ _) as [sum n]. destruct fg0.
    - intros E. injection E as <- <-. split; [ discriminate | auto ].
    - rewrite O. cbn [used bg]. rewrite !Z.mod_1_r. cbn [Z.eqb used bg]. rewrite ?Z.mod_1_r. cbn [Z.eqb].
      destruct (neighbour_near (rnd (S (S (S (used st))))) p size (Hrnd _) Hp) as (q & -> & Hq & _). intros E. injection E as <- <-. unfold stored. cbn [bg]. rewrite (point_flat size p Hp). split.
      + intros _. eapply stored_more; [ exact Hp | exact Hq | reflexivity | ]. exists (Z.to_nat (rnd (S (used st)) mod Z.of_nat (samples (loop c)))). split; [ apply pick_lt | apply store_same ].
      + intros p' Hp' S0. eapply stored_more; [ exact Hp' | exact Hq | reflexivity | ]. eapply stored_more; [ exact Hp' | exact Hp | reflexivity | exact S0 ].
  Qed.
  Lemma pbas_pixels_stored f : gapless (mode_of c) size f -> override f = Some 1 -> forall l st m st', (forall p, In p l -> in_image size p) -> apply_pixels c rnd size f l st = Some (m, st') ->
    (forall p, In (p, false) m -> stored f st' p) /\ (forall p, in_image size p -> stored f st p -> stored f st' p).
  Proof.
    intros G O. induction l as [|p l IH]; intros st m st' Hl; cbn [apply_pixels]; [ intros E; injection E as <- <-; split; [ intros ? [] | auto ] | ].
    destruct (apply_pixel c rnd size f st p) as [[fg st1]|] eqn:E1; [ | discriminate ]. destruct (apply_pixels c rnd size f l st1) as [[m2 st2]|] eqn:E2; [ | discriminate ].
    intros E. injection E as <- <-. assert (Hp : in_image size p) by (apply Hl; now left). destruct (pbas_pixel_stored f st p fg st1 G O Hp E1) as [A1 A2]. destruct (IH _ _ _ (fun q I => Hl q (or_intror I)) E2) as [B1 B2].
    split; auto. intros p' [X|I]; auto. injection X as <- ->. auto.
  Qed.
  Lemma pbas_stored f st m st' : gapless (mode_of c) size f -> override f = Some 1 -> apply c rnd size f st = Some (m, st') -> forall p, In (p, false) m -> stored f st' p.
  Proof.
    intros G O. unfold apply. destruct (apply_pixels _ _ _ _ _ _) as [[m1 s1]|] eqn:E; [ | discriminate ]. intros X. injection X as <- <-.
    apply (pbas_pixels_stored f G O) in E; [ | intros p I; apply raster_in; exact I ]. destruct E as [A _]. exact A.
  Qed.
End Pbas.

Section Lobster.
  Import Model.Distances Model.Lobster.
  Context (c : config) (rnd : nat -> Z) (rate : Z) (size : Z * Z) (H : forall k, rnd k mod rate <> 0).
  Lemma lobster_pixel_kept img st i fg st' : apply_pixel c rnd rate size img st i = Some (fg, st') -> col st' = col st /\ dsc st' = dsc st.
  Proof.
    unfold apply_pixel. destruct (all _) as [cur|]; cbn [bind]; [ | discriminate ]. destruct (all _) as [vals|]; cbn [bind]; [ | discriminate ]. destruct (good_count _ _ _ _ _ _ _ _) as [g|]; cbn [bind]; [ | discriminate ].
    destruct (Nat.ltb g (required c)). { intros E. injection E as _ <-. auto. }
    destruct (all _) as [d|]; cbn [bind]; [ | discriminate ]. rewrite (proj2 (Z.eqb_neq _ _) (H _)). cbn [bind]. rewrite (proj2 (Z.eqb_neq _ _) (H _)). cbn [bind]. intros E. injection E as _ <-. auto.
  Qed.
  Lemma lobster_pixels_kept img : forall l st m st', apply_pixels c rnd rate size img l st = Some (m, st') -> col st' = col st /\ dsc st' = dsc st.
  Proof.
    induction l as [|i l IH]; intros st m st'; cbn [apply_pixels]; [ intros E; injection E as _ <-; auto | ].
    destruct (apply_pixel c rnd rate size img st i) as [[fg st1]|] eqn:E1; cbn [bind]; [ | discriminate ]. cbn [snd]. destruct (apply_pixels c rnd rate size img l st1) as [[m2 st2]|] eqn:E2; cbn [bind]; [ | discriminate ].
    intros E. injection E as _ <-. cbn [snd]. destruct (IH _ _ _ E2) as [-> ->]. exact (lobster_pixel_kept _ _ _ _ _ E1).
  Qed.
  Lemma lobster_kept img pxs st m st' : apply c rnd rate size pxs img st = Done (m, st') -> col st' = col st /\ dsc st' = dsc st.
  Proof.
    unfold apply. destruct (rate <=? 0); [ discriminate | ]. destruct (apply_pixels c rnd rate size img pxs st) as [[m1 s1]|] eqn:E; cbn [bind finish]; [ | discriminate ].
    intros X. injection X as _ <-. cbn [fst snd col dsc]. exact (lobster_pixels_kept _ _ _ _ _ E).
  Qed.
End Lobster.

Section Subsense.
  Import Model.Distances Model.Lobster Model.SubsenseFrame.
  Context (c : config) (rnd : nat -> Z) (ov : Z) (size : Z * Z) (Hov : 0 < ov) (H : forall k, rnd k mod ov <> 0 /\ rnd k mod (ov / 2 + 1) <> 0).
  Lemma lottery_lost r n : r mod n <> 0 -> lottery r n = Fault Modulo \/ lottery r n = Done false.
  Proof. intros X. unfold lottery. destruct (n =? 0); auto. rewrite (proj2 (Z.eqb_neq _ _) X). auto. Qed.
  Lemma spread_kept g u raw motion i v e m m' : (forall k, rnd k mod Qfloor (Subsense.low_cap g) <> 0) -> spread c rnd size g ov u raw motion i v e m = Done m' -> col m' = col m /\ dsc m' = dsc m.
  Proof.
    intros L. unfold spread. destruct (lottery_lost (rnd (used m)) ov (proj1 (H _))) as [-> | ->]; cbn [obind]; [ discriminate | ].
    match goal with |- obind ?o _ = _ -> _ => destruct o as [q| | |] end; cbn [obind]; try discriminate.
    match goal with |- obind ?o _ = _ -> _ => destruct o as [d| | |] end; cbn [obind]; try discriminate.
    match goal with |- obind ?o _ = _ -> _ => destruct o as [s| | |] end; cbn [obind]; try discriminate.
    destruct (lottery_lost (rnd (used (tick (tick m)))) (if spread3 c && negb u then ov else ov / 2 + 1)) as [X|X].
    { destruct (spread3 c && negb u); apply H. }
    { rewrite X. cbn [obind]. discriminate. }
    rewrite X. cbn [obind]. destruct (Pbas.Qltb (995 # 1000) s && Pbas.Qltb d (1 # 100)).
    - destruct (lottery_lost (rnd (used (tick (tick m)))) (Qfloor (Subsense.low_cap g)) (L _)) as [Y|Y]; rewrite Y; cbn [obind]; [ discriminate | ]. intros E. injection E as <-. auto.
    - cbn [obind]. intros E. injection E as <-. auto.
  Qed.
  Lemma subsense_pixel_kept img al as_ st i r st' : Subsense.cooldown (glob st) = 0 -> (forall k, rnd k mod Qfloor (Subsense.low_cap (glob st)) <> 0) ->
    apply_pixel c rnd ov size img al as_ st i = Done (r, st') -> col (mem st') = col (mem st) /\ dsc (mem st') = dsc (mem st) /\ glob st' = glob st.
  Proof.
    intros C L. unfold apply_pixel. do 6 (match goal with |- obind ?o _ = _ -> _ => destruct o as [?| | |]; cbn [obind]; [ | discriminate | discriminate | discriminate ] end).
    match goal with |- obind ?o _ = _ -> _ => destruct o as [mm| | |] eqn:E; cbn [obind]; [ | discriminate | discriminate | discriminate ] end.
    assert (K : col mm = col (mem st) /\ dsc mm = dsc (mem st)).
    { match type of E with (if ?b then _ else _) = _ => destruct b end.
      - unfold absorb in E. rewrite C in E. cbn [Z.eqb] in E. injection E as <-. auto.
      - unfold rate_of in E. rewrite (proj2 (Z.ltb_lt _ _) Hov) in E. eapply spread_kept; [ | exact E ]. exact L. }
    match goal with |- obind ?o _ = _ -> _ => destruct o as [?| | |]; cbn [obind]; [ | discriminate | discriminate | discriminate ] end.
    intros X. injection X as _ <-. cbn [mem col dsc glob]. tauto.
  Qed.
  Lemma subsense_pixels_kept img al as_ : forall l st m st', Subsense.cooldown (glob st) = 0 -> (forall k, rnd k mod Qfloor (Subsense.low_cap (glob st)) <> 0) ->
    apply_pixels c rnd ov size img al as_ l st = Done (m, st') -> col (mem st') = col (mem st) /\ dsc (mem st') = dsc (mem st).
  Proof.
    induction l as [|i l IH]; intros st m st' C L; cbn [apply_pixels]; [ intros E; injection E as _ <-; auto | ].
    destruct (apply_pixel c rnd ov size img al as_ st i) as [[a st1]| | |] eqn:E1; cbn [obind]; try discriminate. cbn [snd].
    destruct (apply_pixels c rnd ov size img al as_ l st1) as [[b st2]| | |] eqn:E2; cbn [obind]; try discriminate. intros X. injection X as _ <-. cbn [snd].
    destruct (subsense_pixel_kept _ _ _ _ _ _ _ C L E1) as (A1 & A2 & A3). rewrite <- A1, <- A2. apply (IH st1 b st2); [ | | exact E2 ]; rewrite A3; auto.
  Qed.
  Lemma subsense_kept ratio pxs img st m st' : Subsense.cooldown (glob st) = 0 -> (forall k, rnd k mod Qfloor (Subsense.low_cap (glob st)) <> 0) -> large c = false ->
    apply c rnd ov ratio size pxs img st = Done (m, st') -> col (mem st') = col (mem st) /\ dsc (mem st') = dsc (mem st).
  Proof.
    intros C L La. unfold apply. destruct (Subsense.factor _ _) as [al|]; [ | discriminate ]. destruct (Subsense.factor _ _) as [as_|]; [ | discriminate ].
    match goal with |- obind ?o _ = _ -> _ => destruct o as [[a s]| | |] eqn:E end; cbn [obind]; try discriminate. cbn [fst snd]. apply subsense_pixels_kept in E; auto. cbn [mem] in E.
    rewrite La. cbn [andb]. assert (G : forall g r, Subsense.global_step (loop c) ratio g = Subsense.Done r -> fst r = false).
    { intros g r. unfold Subsense.global_step. cbn [loop Subsense.scaling]. rewrite La. intros X. injection X as <-. reflexivity. }
    match goal with |- obind (feedback ?o) _ = _ -> _ => destruct o as [rg|f] eqn:Eg end; cbn [feedback obind]; try discriminate. rewrite (G _ _ Eg). cbn [obind]. intros X. injection X as _ <-. cbn [mem col dsc]. exact E.
  Qed.
End Subsense.
