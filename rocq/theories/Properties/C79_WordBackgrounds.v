(* C79: the background images of PAWCS: a pixel is the weighted mean of its words, between the least and the greatest of those with occurrences, unless no
   word has any: then it is zero divided by zero. *)
From Coq Require Import ZArith QArith List Bool Lia Lqa.
From Verif Require Import Lib.Grid Model.Lbsp Spec.Lbsp Model.Lobster Spec.Lobster Model.WordDict Model.Pawcs Spec.Pawcs.
From Verif Require Model.Subsense Proofs.Pawcs Proofs.PawcsFrame.
From Verif Require Import Proofs.PawcsReach Proofs.PawcsImage.
Import ListNotations.
Open Scope Z_scope.

(* Channel k of the jth pixel of the region. *)
Theorem C79_background : forall c rnd sz img sc l st j k, reached c rnd sz img sc l st -> 0 <= j < Z.of_nat (length (pxs sc)) -> 0 <= k < ch c ->
  exists ws, length ws = locals c /\ listed (dict st) (j * Z.of_nat (locals c)) ws /\
  let val := fun w => nth (Z.to_nat k) (colour w) 0 in
  (background c sc st j k = Done None /\ Forall (fun w => occ w = 0) ws) \/
  exists q, background c sc st j k = Done (Some q) /\ Exists (fun w => 0 < occ w) ws /\ average (frame (lev st)) (woff (lev st)) val ws q /\ (0 <= q <= 255)%Q /\
    forall lo hi, (forall w, In w ws -> 0 < occ w -> lo <= val w <= hi) -> (inject_Z lo <= q <= inject_Z hi)%Q.
Proof.
  intros c rnd sz img sc l st j k R Hj Hk. destruct (reached_live _ _ _ _ _ _ _ R) as (S & L & F & _). pose proof (reached_known _ _ _ _ _ _ _ R) as K. destruct R as (st0 & ((_ & Hm & Hg & _) & _) & _).
  destruct (words_are c sc st Hm Hg L (j * Z.of_nat (locals c)) (locals c) ltac:(apply Z.mul_nonneg_nonneg; lia) ltac:(nia)) as (ws & E & Len & Li & V). exists ws. split; [ exact Len |]. split; [ exact Li |]. intros val. unfold background. rewrite E. cbn [obind].
  destruct (mean_ok c st Hm Hg K val _ _ ws E V) as [[M A]|(q & M & X & W & B)].
  - left. fold val. rewrite M. split; [ reflexivity | now apply Forall_forall ].
  - right. exists q. fold val. rewrite M. split; [ reflexivity |]. split; [ now apply Exists_exists |]. split; [ exact W |]. split; [| exact B ]. apply (B 0 255). intros w I _. destruct (V w I) as [[V1 V2] _ _ _]. rewrite Forall_forall in V2. apply V2. unfold val. apply nth_In. lia.
Qed.
Print Assumptions C79_background.

(* Descriptors in the same way: what is kept fits in 16 bits. *)
Theorem C79_descriptor : forall c rnd sz img sc l st j k, reached c rnd sz img sc l st -> 0 <= j < Z.of_nat (length (pxs sc)) -> 0 <= k < ch c ->
  exists ws, length ws = locals c /\ listed (dict st) (j * Z.of_nat (locals c)) ws /\
  let val := fun w => nth (Z.to_nat k) (tex w) 0 in
  (background_descriptor c sc st j k = Done None /\ Forall (fun w => occ w = 0) ws) \/
  exists q, background_descriptor c sc st j k = Done (Some q) /\ average (frame (lev st)) (woff (lev st)) val ws q /\ (0 <= q <= 65535)%Q.
Proof.
  intros c rnd sz img sc l st j k R Hj Hk. destruct (reached_live _ _ _ _ _ _ _ R) as (S & L & F & _). pose proof (reached_known _ _ _ _ _ _ _ R) as K. destruct R as (st0 & ((_ & Hm & Hg & _) & _) & _).
  destruct (words_are c sc st Hm Hg L (j * Z.of_nat (locals c)) (locals c) ltac:(apply Z.mul_nonneg_nonneg; lia) ltac:(nia)) as (ws & E & Len & Li & V). exists ws. split; [ exact Len |]. split; [ exact Li |]. intros val. unfold background_descriptor. rewrite E. cbn [obind].
  destruct (mean_ok c st Hm Hg K val _ _ ws E V) as [[M A]|(q & M & X & W & B)].
  - left. fold val. rewrite M. split; [ reflexivity | now apply Forall_forall ].
  - right. exists q. fold val. rewrite M. split; [ reflexivity |]. split; [ exact W |]. apply (B 0 65535). intros w I _. destruct (V w I) as [_ [V1 V2] _ _]. rewrite Forall_forall in V2. assert (In (val w) (tex w)) by (unfold val; apply nth_In; lia). specialize (V2 _ H). lia.
Qed.
Print Assumptions C79_descriptor.

(* A refresh that gives words no occurrences may leave a pixel none: its background is zero divided by zero. *)
Theorem C79_no_background_refuted : exists c rnd sc l st, reached c rnd (8, 8) picture sc l st /\ pxs sc <> [] /\ background c sc st 0 0 = Done None.
Proof. exact no_background. Qed.
Print Assumptions C79_no_background_refuted.

(* Descriptors are strings of bits, and their mean as numbers may have a bit that none of them has. *)
Theorem C79_descriptor_bits_refuted : exists c rnd sc st q ws, reached c rnd (8, 8) picture sc [] st /\ 4 < Z.of_nat (length (pxs sc)) /\ background_descriptor c sc st 4 0 = Done (Some q) /\
  Z.testbit (half_even q) 4 = true /\ length ws = locals c /\ listed (dict st) (4 * Z.of_nat (locals c)) ws /\ Forall (fun w => Z.testbit (nth 0 (tex w) 0) 4 = false) ws.
Proof.
  destruct (tested_of _ _ started_mixed) as (sc & st & Es & Eb). apply mixed_split in Eb. destruct Eb as (El & (q & Q1 & Q2) & ws & W1 & W2).
  assert (R : reached grey_config lcg (8, 8) picture sc [] st) by (exists st; split; [ exact (started_begun _ _ Es) | split; [ cbn; lia | split; [ constructor | reflexivity ] ] ]).
  destruct (reached_live _ _ _ _ _ _ _ R) as (_ & L & _). destruct (words_are grey_config sc st ltac:(cbn; lia) ltac:(cbn; lia) L 8 2 ltac:(lia) ltac:(change (locals grey_config) with 2%nat; lia)) as (ws' & E & Len & Li & _). rewrite W1 in E. injection E as <-.
  exists grey_config, lcg, sc, st, q, ws. split; [ exact R |]. split; [ lia |]. split; [ exact Q1 |]. split; [ exact Q2 |]. split; [ exact Len |]. split; [ exact Li | exact W2 ].
Qed.
Print Assumptions C79_descriptor_bits_refuted.

(* ---- the first pixel of an object after three frames and two refreshes *)
Example C79_ex_reached : exists sc st, reached grey_config lcg (8, 8) picture sc history st /\ 0 <= 0 < Z.of_nat (length (pxs sc)) /\ 0 <= 0 < ch grey_config.
Proof.
  assert (E : is_done (ran started) = true) by (vm_compute; reflexivity). assert (X : width started = 16%nat) by (vm_compute; reflexivity). destruct started as [[sc st0]| | |] eqn:Es; try discriminate E. cbn [ran] in E.
  destruct (play grey_config lcg sc history st0) as [st| | |] eqn:Ep; try discriminate E. exists sc, st. split; [| cbn [width] in X; rewrite X; cbn; lia ].
  exists st0. split; [ exact (started_begun _ _ Es) | split; [ cbn; lia | split; [ exact history_allowed | exact Ep ] ] ].
Qed.
