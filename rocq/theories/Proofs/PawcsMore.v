From Coq Require Import ZArith QArith Qround List Bool Lia Lqa.
From Verif Require Import Lib.Grid Model.Sampling Model.Lbsp Model.RoiTable Model.Pbas Spec.Lbsp Model.Lobster Spec.Lobster Model.WordDict Model.Pawcs Spec.Pawcs.
From Verif Require Model.Subsense Model.SubsenseFrame Proofs.SubsenseRun Proofs.PawcsFrame Proofs.PawcsReach.
Import ListNotations.
Open Scope Z_scope.

Lemma bind_done {A B} (o : outcome A) (f : A -> outcome B) b : obind o f = Done b -> exists a, o = Done a /\ f a = Done b.
Proof. destruct o as [a| | |]; cbn [obind]; try discriminate. intros E. exists a. auto. Qed.
Lemma each_inv {A S} (f : A -> S -> outcome S) (J : S -> Prop) : (forall a s s', f a s = Done s' -> J s -> J s') -> forall l s s', each f l s = Done s' -> J s -> J s'.
Proof.
  intros H. induction l as [|a l IH]; intros s s' E Js; cbn [each] in E; [ injection E as <-; exact Js |]. apply bind_done in E as (s1 & E1 & E2). eapply IH; [ exact E2 |]. eapply H; eauto.
Qed.
Lemma done_eq {A} (a b : A) : Done a = Done b -> a = b. Proof. intros E. now injection E. Qed.

(* ------------------------------------------------------------------ after initialization *)
Lemma initialize_level c rnd old cur given sz img sc st : initialize c rnd old cur given sz img = Done (sc, st) ->
  frame (lev st) = 0 /\ woff (lev st) = 1000 /\ moving (lev st) = false /\ auto (lev st) = snd (fst old) /\ since (lev st) = 0 /\ cool (lev st) = 0 /\ nz (lev st) = 0%Q.
Proof.
  unfold initialize. destruct (initialize_roi _ _ _ _ _) as [r|]; [| discriminate ]. cbv zeta. intros E. apply bind_done in E as (ld & _ & E). destruct (_ || _); [ discriminate |].
  apply bind_done in E as (s & R & E). apply done_eq in E. injection E as <- <-. apply PawcsFrame.refresh_rest in R. rewrite (proj2 R). cbn. auto 9.
Qed.

(* ------------------------------------------------------------------ the maps of global words *)
Lemma blurred_local w h m m' a : 0 < w -> 0 < h -> (forall b, 0 <= b < w * h -> m b = m' b) -> blurred w h m a = blurred w h m' a.
Proof.
  intros W H E. unfold blurred. f_equal. f_equal. generalize 0%Q. induction (grid (-1) 3 (-1) 3) as [|d l IH]; intros t; [ reflexivity |]. cbn [fold_left]. rewrite E; [ apply IH |].
  set (y := Z.max 0 _). set (x := Z.max 0 _). assert (0 <= y <= h - 1) by (unfold y; lia). assert (0 <= x <= w - 1) by (unfold x; lia). nia.
Qed.
Lemma weaken_local sc clear m m' a : 2 <= fst (size sc) -> 2 <= snd (size sc) -> (forall b, 0 <= b < map_size sc -> m b = m' b) -> weaken sc clear m a = weaken sc clear m' a.
Proof.
  intros W H E. unfold weaken. apply blurred_local; [ apply Z.div_str_pos; lia | apply Z.div_str_pos; lia |]. intros b B. rewrite E; [ reflexivity |]. exact B.
Qed.
Lemma qred_sum_bounds {A} (g : A -> Q) lo hi l : (forall a, In a l -> lo <= g a <= hi)%Q -> forall t, (t + inject_Z (Z.of_nat (length l)) * lo <= fold_left (fun t a => t + g a) l t <= t + inject_Z (Z.of_nat (length l)) * hi)%Q.
Proof.
  induction l as [|a l IH]; intros B t; cbn [fold_left].
  - change (inject_Z (Z.of_nat (length (@nil A)))) with 0%Q. split; ring_simplify; apply Qle_refl.
  - specialize (IH (fun b I => B b (or_intror I)) (t + g a)%Q). specialize (B a (or_introl eq_refl)).
    assert (L : (inject_Z (Z.of_nat (length (a :: l))) == 1 + inject_Z (Z.of_nat (length l)))%Q) by (cbn [length]; rewrite Nat2Z.inj_succ; unfold Z.succ; rewrite inject_Z_plus; apply Qplus_comm).
    rewrite L. split; [ eapply Qle_trans; [| apply IH ] | eapply Qle_trans; [ apply IH |] ]; lra.
Qed.
Lemma weaken_range sc clear m a hi : 2 <= fst (size sc) -> 2 <= snd (size sc) -> (forall b, 0 <= b < map_size sc -> (0 <= m b <= hi)%Q) -> (0 <= weaken sc clear m a <= hi)%Q.
Proof.
  intros W H B. unfold weaken, blurred. rewrite Qred_correct.
  assert (G : forall d, (0 <= (fun a0 => if downscaled sc clear a0 then (9 # 10) * m a0 else m a0) (Z.max 0 (Z.min (snd (size sc) / 2 - 1) (a / (fst (size sc) / 2) + fst d)) * (fst (size sc) / 2) + Z.max 0 (Z.min (fst (size sc) / 2 - 1) (a mod (fst (size sc) / 2) + snd d)))%Z <= hi)%Q).
  { intros d. assert (Hw : 0 < fst (size sc) / 2) by (apply Z.div_str_pos; lia). assert (Hh : 0 < snd (size sc) / 2) by (apply Z.div_str_pos; lia). cbv beta.
    set (y := Z.max 0 (Z.min (snd (size sc) / 2 - 1) _)). set (x := Z.max 0 (Z.min (fst (size sc) / 2 - 1) _)). assert (0 <= y <= snd (size sc) / 2 - 1) by (unfold y; lia). assert (0 <= x <= fst (size sc) / 2 - 1) by (unfold x; lia).
    specialize (B (y * (fst (size sc) / 2) + x) ltac:(unfold map_size; nia)). destruct (downscaled _ _ _); lra. }
  pose proof (qred_sum_bounds (fun d : Z * Z => (fun a0 => if downscaled sc clear a0 then (9 # 10) * m a0 else m a0)%Q (Z.max 0 (Z.min (snd (size sc) / 2 - 1) (a / (fst (size sc) / 2) + fst d)) * (fst (size sc) / 2) + Z.max 0 (Z.min (fst (size sc) / 2 - 1) (a mod (fst (size sc) / 2) + snd d)))) 0 hi (grid (-1) 3 (-1) 3) (fun d _ => G d) 0%Q) as K.
  change (inject_Z (Z.of_nat (length (grid (-1) 3 (-1) 3)))) with 9%Q in K. cbv beta in K. destruct K as [K1 K2]. split.
  - apply Qle_shift_div_l; [ reflexivity |]. eapply Qle_trans; [| exact K1 ]. lra.
  - apply Qle_shift_div_r; [ reflexivity |]. eapply Qle_trans; [ exact K2 |]. lra.
Qed.

(* ------------------------------------------------------------------ m_oIllumUpdtRegionMask *)
Definition dim (m : Z -> Z) : Prop := forall i, 0 <= m i <= 2.
Lemma land1 a : 0 <= Z.land 1 a <= 1.
Proof. rewrite Z.land_comm. pose proof (Z.land_ones a 1 ltac:(lia)) as E. change (Z.ones 1) with 1 in E. change (2 ^ 1) with 2 in E. rewrite E. pose proof (Z.mod_pos_bound a 2 ltac:(lia)). lia. Qed.
Lemma dim_set m i v : dim m -> 0 <= v <= 2 -> dim (SubsenseFrame.set1 m i v).
Proof. intros D V j. unfold SubsenseFrame.set1. destruct (j =? i); auto. Qed.
Lemma lit_dim sc i m m' : lit sc i m = Done m' -> dim m -> dim m'.
Proof.
  unfold lit. intros E D. apply bind_done in E as (a & _ & E). apply bind_done in E as (b & _ & E). apply done_eq in E. subst m'. pose proof (land1 a). pose proof (land1 b). repeat apply dim_set; auto; lia.
Qed.
Lemma compare_dim c rnd sc st s i ill n w w1 ill1 n1 h : compare_word c rnd sc st s i ill n w = Done (w1, ill1, n1, h) -> dim ill -> dim ill1.
Proof.
  unfold compare_word. intros E D. apply bind_done in E as ([[[d l1] intra] dd] & _ & E). apply bind_done in E as (won & _ & E). apply bind_done in E as (ill2 & L & E).
  assert (D2 : dim ill2) by (destruct won; [ eapply lit_dim; eauto | apply done_eq in L; now subst ]). destruct (_ && _); apply done_eq in E; injection E; intros; subst; exact D2.
Qed.
Lemma scan_word_dim c rnd sc st s i b k z z' : scan_word c rnd sc st s i b k z = Done z' -> dim (sillum z) -> dim (sillum z').
Proof.
  unfold scan_word. intros E D. apply bind_done in E as (w & _ & E). apply bind_done in E as (z1 & E1 & E).
  assert (D1 : dim (sillum z1)).
  { destruct (Qltb _ _) in E1; [| apply done_eq in E1; now subst ]. apply bind_done in E1 as ([[[w1 ill] n] hit] & C & E1). apply bind_done in E1 as (m & _ & E1). apply done_eq in E1. subst z1.
    apply compare_dim in C; [| exact D ]. destruct hit as [[d dd]|]; exact C. }
  match type of E with (if ?t then _ else _) = _ => destruct t end; [ apply bind_done in E as (m & _ & E) |]; apply done_eq in E; subst z'; exact D1.
Qed.
Lemma scan_dim c rnd sc st s i b z : scan c rnd sc st s i b = Done z -> dim (illum st) -> dim (sillum z).
Proof. unfold scan. intros E D. refine (each_inv _ (fun z => dim (sillum z)) _ _ _ _ E D). intros k z0 z1. apply scan_word_dim. Qed.

(* what apply_pixel keeps of the record of a pixel *)
Definition past (p : Subsense.pixel) : bool * bool * bool * bool * bool := (Subsense.blinks p, Subsense.last_raw p, Subsense.last_blink p, Subsense.last_final p, Subsense.clear p).
Lemma apply_pixel_keeps c rnd ov sc img al as_ ji r r' : apply_pixel c rnd ov sc img al as_ ji r = Done r' ->
  (dim (illum (snd r)) -> dim (illum (snd r'))) /\ (forall i, past (px (snd r') i) = past (px (snd r) i)).
Proof.
  destruct r as [[out fg0] st]. unfold apply_pixel. intros E. apply bind_done in E as (s & _ & E). apply bind_done in E as (z & Sc & E). apply bind_done in E as ([[[g1 n1] fgi] m1] & _ & E). apply bind_done in E as (mn & _ & E).
  apply done_eq in E. subst r'. cbn [snd illum px]. split.
  - intros D. apply scan_dim in Sc; [| exact D ]. apply dim_set; [ exact Sc |]. pose proof (Sc (snd ji)). destruct (Z.eqb_spec (sillum z (snd ji)) 0); lia.
  - intros i. unfold SubsenseFrame.set1. destruct (Z.eqb_spec i (snd ji)) as [->|]; reflexivity.
Qed.
Lemma refresh_illum c rnd sc base frac force st st' : refreshModel c rnd sc base frac force st = Done st' -> illum st' = illum st /\ px st' = px st.
Proof.
  unfold refreshModel. destruct (_ || _); [ discriminate |]. cbv zeta. intros E. apply bind_done in E as (s & _ & E). apply bind_done in E as (g1 & _ & E). apply bind_done in E as (g2 & _ & E). apply bind_done in E as (g3 & _ & E). apply bind_done in E as (o & _ & E).
  apply done_eq in E. subst st'. auto.
Qed.
Lemma camera_more c rnd sc a b st st' : camera c rnd sc a b st = Done st' -> illum st' = illum st /\ px st' = px st /\ nz (lev st') = nz (lev st).
Proof.
  unfold camera. cbv zeta. intros H. destruct (negb _); [ apply done_eq in H; now subst |]. destruct (_ && _ && _); [| destruct (_ && _ && _) ]; try (apply done_eq in H; now subst).
  - destruct (refresh_illum _ _ _ _ _ _ _ _ H) as [I P]. apply PawcsFrame.refresh_rest in H. rewrite I, P, (proj2 H). cbn. auto.
  - destruct (refresh_illum _ _ _ _ _ _ _ _ H) as [I P]. apply PawcsFrame.refresh_rest in H. rewrite I, P, (proj2 H). cbn. auto.
Qed.
Lemma reset_more c rnd sc r n st st' : reset c rnd sc r n st = Done st' -> illum st' = illum st /\ (forall i, past (px st' i) = past (px st i)) /\ nz (lev st') = nz (lev st).
Proof.
  unfold reset. cbv zeta. intros H. destruct (1000 <? _); [ apply done_eq in H; subst; cbn; auto |]. destruct (_ && _).
  - apply bind_done in H as (s & R & H). apply done_eq in H. subst st'. destruct (refresh_illum _ _ _ _ _ _ _ _ R) as [I P]. cbn [illum px lev nz]. rewrite I, P. cbn. auto.
  - destruct (_ <=? _); apply done_eq in H; subst; cbn; auto.
Qed.
Lemma frame_level_more c rnd sc r a b n st st' : frame_level c rnd sc r a b n st = Done st' -> illum st' = illum st /\ (forall i, past (px st' i) = past (px st i)) /\ nz (lev st') = nz (lev st).
Proof.
  unfold frame_level. cbv zeta. intros H. apply bind_done in H as (s & E & H). apply done_eq in H. subst st'. cbn [illum px lev nz with_lev].
  destruct (_ || _ || _).
  - apply bind_done in E as (s1 & C & R). apply camera_more in C as (C1 & C2 & C3). apply reset_more in R as (R1 & R2 & R3). rewrite R1, C1, R3, C3. split; [ reflexivity |]. split; [| reflexivity ]. intros i. rewrite R2, C2. reflexivity.
  - apply done_eq in E. subst s. cbn. auto.
Qed.
Definition marked (m : list (Z * bool)) (i : Z) : bool := existsb (fun x => (fst x =? i) && snd x) m.
Lemma marked_spec m i : marked m i = true <-> In (i, true) m.
Proof.
  unfold marked. rewrite existsb_exists. split.
  - intros ([j f] & I & E). cbn [fst snd] in E. rewrite andb_true_iff, Z.eqb_eq in E. destruct E as [-> ->]. exact I.
  - intros I. exists (i, true). split; [ exact I |]. cbn [fst snd]. now rewrite Z.eqb_refl.
Qed.
Lemma apply_more c rnd ov r a b sc img st m st' : apply c rnd ov r a b sc img st = Done (m, st') ->
  (dim (illum st) -> dim (illum st')) /\ lut (lev st') = adapt c (nz (lev st')) (nz (lev st)) (lut (lev st)) /\
  forall i, Subsense.last_raw (px st' i) = marked m i /\ Subsense.last_blink (px st' i) = xorb (marked m i) (Subsense.last_raw (px st i)) /\
    Subsense.last_final (px st' i) = filtered c m i /\ Subsense.clear (px st' i) = negb (grown c m i) /\
    Subsense.blinks (px st' i) = (Subsense.last_blink (px st' i) || Subsense.last_blink (px st i)) && Subsense.clear (px st i) && Subsense.clear (px st' i).
Proof.
  unfold apply. destruct (Subsense.factor _ _) as [al|]; [| discriminate ]. destruct (Subsense.factor _ _) as [as_|]; [| discriminate ]. cbv zeta. intros E.
  apply bind_done in E as ([[out f0] s] & A & E). apply bind_done in E as (g & _ & E). apply bind_done in E as (o & _ & E). apply bind_done in E as (s2 & FL & E). apply done_eq in E. injection E as <- <-.
  pose proof (PawcsFrame.frame_level_keeps _ _ _ _ _ _ _ _ _ FL) as (_ & Kl & _). apply frame_level_more in FL as (F1 & F2 & F3). cbn [illum px lev nz lut] in F1, F2, F3, Kl.
  assert (J : (dim (illum st) -> dim (illum s)) /\ forall i, past (px s i) = past (px st i)).
  { refine (each_inv _ (fun x => (dim (illum st) -> dim (illum (snd x))) /\ forall i, past (px (snd x) i) = past (px st i)) _ _ _ _ A _).
    - intros ji x x' Ex [J1 J2]. apply apply_pixel_keeps in Ex as [K1 K2]. split; [ auto |]. intros i. now rewrite K2.
    - cbn [snd with_lev illum px]. auto. }
  destruct J as [J1 J2]. split; [ rewrite F1; exact J1 |]. split; [ rewrite Kl, F3; reflexivity |].
  intros i. specialize (F2 i). specialize (J2 i). unfold past in F2, J2. unfold SubsenseFrame.close_pixel in F2. cbn [Subsense.blinks Subsense.last_raw Subsense.last_blink Subsense.last_final Subsense.clear] in F2.
  injection F2 as B1 B2 B3 B4 B5. injection J2 as _ Hr _ _ _. rewrite B1, B2, B3, B4, B5, Hr. fold (marked (SubsenseFrame.raw out) i). auto 6.
Qed.
Lemma play_inv c rnd sc (J : state -> Prop) : (forall e st st', act c rnd sc e st = Done st' -> J st -> J st') -> forall l st st', J st -> play c rnd sc l st = Done st' -> J st'.
Proof.
  intros H. induction l as [|e l IH]; intros st st' Js; cbn [play]; [ intros E; apply done_eq in E; now subst |]. destruct (act c rnd sc e st) as [s| | |] eqn:E; try discriminate; [| apply IH; exact Js ]. apply IH. eapply H; eauto.
Qed.
Lemma initialize_illum c rnd old cur given sz img sc st : initialize c rnd old cur given sz img = Done (sc, st) -> forall i, illum st i = 0.
Proof.
  unfold initialize. destruct (initialize_roi _ _ _ _ _) as [r|]; [| discriminate ]. cbv zeta. intros E. apply bind_done in E as (ld & _ & E). destruct (_ || _); [ discriminate |].
  apply bind_done in E as (s & R & E). apply done_eq in E. injection E as <- <-. apply refresh_illum in R. intros i. rewrite (proj1 R). reflexivity.
Qed.
Lemma reached_illum c rnd sz img sc l st i : reached c rnd sz img sc l st -> 0 <= illum st i <= 2.
Proof.
  intros (st0 & (_ & _ & _ & au & u & cur & given & E) & _ & _ & P). assert (D : dim (illum st)); [| apply D ].
  apply (play_inv c rnd sc (fun s => dim (illum s))) with (l := l) (st := st0); [| intros j; rewrite (initialize_illum _ _ _ _ _ _ _ _ _ E); lia | exact P ].
  intros [f ov r a b|base frac force] s s' A Ds; cbn [act] in A.
  - apply bind_done in A as ([m s1] & A & A'). apply done_eq in A'. cbn [snd] in A'. subst s'. apply apply_more in A. apply A. exact Ds.
  - apply refresh_illum in A. now rewrite (proj1 A).
Qed.
Lemma table_moves c rnd ov r a b sc img st m st' t : apply c rnd ov r a b sc img st = Done (m, st') -> (forall u, 0 <= u <= 255 -> 0 <= lut (lev st) u <= 255) -> 0 <= t <= 255 ->
  (lut (lev st') t < lut (lev st) t -> (nz (lev st) < 1 # 10 /\ nz (lev st') < 1 # 10)%Q) /\ (lut (lev st) t < lut (lev st') t -> (1 # 2 < nz (lev st) /\ 1 # 2 < nz (lev st'))%Q).
Proof.
  intros E B T. apply apply_more in E as (_ & E & _). specialize (B t T). rewrite E. unfold adapt.
  assert (Q : forall x y, Qltb x y = true -> (x < y)%Q). { intros x y X. unfold Qltb in X. apply negb_true_iff in X. apply Qnot_le_lt. intros L. apply Qle_bool_iff in L. congruence. }
  assert (W : forall x, 0 <= x <= 255 -> SubsenseFrame.wrap8 x = x) by (intros x X; unfold SubsenseFrame.wrap8; apply Z.mod_small; lia).
  destruct (Qltb (nz (lev st')) (1 # 10) && Qltb (nz (lev st)) (1 # 10)) eqn:L.
  - rewrite andb_true_iff in L. destruct L as [L1 L2]. apply Q in L1, L2. split; [ auto |]. assert (0 <= least c t) by apply Proofs.SubsenseRun.sat_range. destruct (Z.ltb_spec (least c t) (lut (lev st) t)); [ rewrite W by lia |]; lia.
  - destruct (Qltb (1 # 2) (nz (lev st')) && Qltb (1 # 2) (nz (lev st))) eqn:G; [| lia ]. rewrite andb_true_iff in G. destruct G as [L1 L2]. apply Q in L1, L2. split; [| auto ].
    assert (SubsenseFrame.most (sub c) <= 255) by apply Proofs.SubsenseRun.sat_range. destruct (Z.ltb_spec (lut (lev st) t) (SubsenseFrame.most (sub c))); [ rewrite W by lia |]; lia.
Qed.
