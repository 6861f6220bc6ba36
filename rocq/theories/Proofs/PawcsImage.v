From Coq Require Import ZArith QArith Qround List Bool Lia Lqa.
From Verif Require Import Lib.Grid Model.Sampling Model.Lbsp Model.RoiTable Spec.Lbsp Model.Lobster Spec.Lobster Model.WordDict Model.Pawcs Spec.Pawcs.
From Verif Require Model.Subsense Proofs.Lbsp Proofs.WordDict Proofs.Pawcs Proofs.PawcsFrame Proofs.PawcsSpec.
From Verif Require Import Proofs.PawcsReach.
Import ListNotations.
Open Scope Z_scope.

(* ------------------------------------------------------------------ the offset of weights is 1000 or 5 *)
Definition known (st : state) : Prop := woff (lev st) = 1000 \/ woff (lev st) = 5.
Lemma camera_known c rnd sc a b st st' : camera c rnd sc a b st = Done st' -> known st -> known st'.
Proof.
  unfold camera. destruct (negb _); [ intros H; injection H as <-; auto |]. destruct (_ && _ && _); [| destruct (_ && _ && _) ]; intros H K.
  - apply PawcsFrame.refresh_rest in H. unfold known. rewrite (proj2 H). cbn. auto.
  - apply PawcsFrame.refresh_rest in H. unfold known. rewrite (proj2 H). cbn. auto.
  - injection H as <-. auto.
Qed.
Lemma frame_level_known c rnd sc r a b x st st' : frame_level c rnd sc r a b x st = Done st' -> known st -> known st'.
Proof.
  unfold frame_level. set (st0 := with_lev _ st). intros H K. assert (K0 : known st0) by exact K.
  match type of H with obind ?o _ = _ => assert (A : forall s, o = Done s -> known s) end.
  { intros s. destruct (_ || _ || _); [| intros E; injection E as <-; exact K0 ]. destruct (camera c rnd sc a b st0) as [s1| | |] eqn:Ec; cbn [obind]; try discriminate. intros E. apply camera_known in Ec; [| exact K0 ].
    apply PawcsFrame.reset_keeps in E. destruct E as (_ & _ & E & _). unfold known. rewrite E. exact Ec. }
  match type of H with obind ?o _ = _ => destruct o as [s| | |]; cbn [obind] in H; try discriminate end. injection H as <-. exact (A s eq_refl).
Qed.
Lemma apply_known c rnd ov r a b sc img st m st' : apply c rnd ov r a b sc img st = Done (m, st') -> known st -> known st'.
Proof.
  unfold apply. destruct (Subsense.factor _ _) as [al|]; [| discriminate ]. destruct (Subsense.factor _ _) as [as_|]; [| discriminate ].
  destruct (each _ _ _) as [[[out f0] s]| | |]; cbn [obind]; try discriminate. cbv zeta. destruct (each (age_word _ _ _ _) _ _) as [g| | |]; cbn [obind]; try discriminate.
  match goal with |- obind ?o _ = _ -> _ => destruct o as [o'| | |]; cbn [obind]; try discriminate end. destruct (frame_level _ _ _ _ _ _ _ _) as [s2| | |] eqn:FL; cbn [obind]; try discriminate.
  intros E K. injection E as <- <-. apply frame_level_known in FL; [ exact FL | exact K ].
Qed.
Lemma play_known c rnd sc : forall l st st', play c rnd sc l st = Done st' -> known st -> known st'.
Proof.
  induction l as [|e l IH]; intros st st'; cbn [play]; [ intros E; injection E as <-; auto |]. destruct (act c rnd sc e st) as [s| | |] eqn:E; try discriminate; [| apply IH ].
  intros H K. apply (IH _ _ H). destruct e as [img ov r a b|base frac force]; cbn [act] in E.
  - destruct (apply _ _ _ _ _ _ _ _ _) as [[m s']| | |] eqn:Ea; cbn [obind] in E; try discriminate. injection E as <-. exact (apply_known _ _ _ _ _ _ _ _ _ _ _ Ea K).
  - apply PawcsFrame.refresh_rest in E. unfold known. rewrite (proj2 E). exact K.
Qed.
Lemma reached_known c rnd sz img sc l st : reached c rnd sz img sc l st -> known st.
Proof.
  intros (st0 & (_ & _ & _ & au & u & cur & given & E) & _ & _ & P). apply (play_known _ _ _ _ _ _ P). revert E. unfold initialize. destruct (initialize_roi _ _ _ _ _) as [r|]; [| discriminate ]. cbv zeta. destruct (access _); cbn [obind]; try discriminate. destruct (_ || _); [ discriminate |].
  destruct (refreshModel _ _ _ _ _ _ _) as [s| | |] eqn:E; cbn [obind]; try discriminate. intros X. injection X as <- <-. apply PawcsFrame.refresh_rest in E. unfold known. rewrite (proj2 E). cbn. auto.
Qed.

(* ------------------------------------------------------------------ weighted means *)
Definition weigh (now off : Z) (val : word -> Z) (ws : list word) : Q := fold_right (fun w x => inject_Z (val w) * heft now off w + x)%Q 0%Q ws.
Definition mass (now off : Z) (ws : list word) : Q := fold_right (fun w x => heft now off w + x)%Q 0%Q ws.
Lemma weight_heft now off w : (weight now off w == heft now off w)%Q.
Proof. unfold weight, heft. replace (latest w - first w + (now - latest w) * 2 + off) with (latest w - first w + 2 * (now - latest w) + off) by lia. reflexivity. Qed.
Lemma fold_mass now off l : forall x, (fold_left (fun x w => Qred (x + weight now off w)%Q) l x == x + mass now off l)%Q.
Proof. induction l as [|w l IH]; intros x; cbn [fold_left mass fold_right]; [ ring |]. rewrite IH, Qred_correct, weight_heft. unfold mass. ring. Qed.
Lemma fold_weigh now off val l : forall x, (fold_left (fun x w => Qred (x + inject_Z (val w) * weight now off w)%Q) l x == x + weigh now off val l)%Q.
Proof. induction l as [|w l IH]; intros x; cbn [fold_left weigh fold_right]; [ ring |]. rewrite IH, Qred_correct, weight_heft. unfold weigh. ring. Qed.
Lemma mass_pos now off ws : (forall w, In w ws -> 0 <= heft now off w)%Q -> (0 <= mass now off ws)%Q.
Proof. induction ws as [|w ws IH]; intros H; cbn [mass fold_right]; [ lra |]. pose proof (H w (or_introl eq_refl)). assert (0 <= mass now off ws)%Q by (apply IH; intros; apply H; now right). unfold mass in *. lra. Qed.
Lemma mass_zero now off ws : (forall w, In w ws -> 0 <= heft now off w)%Q -> (mass now off ws == 0)%Q <-> forall w, In w ws -> (heft now off w == 0)%Q.
Proof.
  induction ws as [|w ws IH]; intros H; cbn [mass fold_right]; [ split; [ intros _ w [] | reflexivity ] |]. pose proof (H w (or_introl eq_refl)) as Hw. assert (Hs : forall w, In w ws -> (0 <= heft now off w)%Q) by (intros; apply H; now right).
  pose proof (mass_pos now off ws Hs) as P. unfold mass in *. split.
  - intros E v [<-|I]; [ lra |]. apply IH; [ exact Hs | lra | exact I ].
  - intros E. rewrite (E w (or_introl eq_refl)), (proj2 (IH Hs)); [ ring | intros; apply E; now right ].
Qed.
Lemma weigh_between now off val ws lo hi : (forall w, In w ws -> 0 <= heft now off w)%Q -> (forall w, In w ws -> (0 < heft now off w)%Q -> lo <= val w <= hi) ->
  (inject_Z lo * mass now off ws <= weigh now off val ws <= inject_Z hi * mass now off ws)%Q.
Proof.
  induction ws as [|w ws IH]; intros H B; cbn [weigh mass fold_right]; [ split; lra |]. pose proof (H w (or_introl eq_refl)) as Hw.
  assert (A : (inject_Z lo * mass now off ws <= weigh now off val ws <= inject_Z hi * mass now off ws)%Q) by (apply IH; intros; [ apply H | apply B ]; auto; now right). unfold mass, weigh in A.
  assert (B1 : (inject_Z lo * heft now off w <= inject_Z (val w) * heft now off w <= inject_Z hi * heft now off w)%Q).
  { destruct (Qlt_le_dec 0 (heft now off w)) as [L|L].
    - destruct (B w (or_introl eq_refl) L) as [B1 B2]. rewrite Zle_Qle in B1, B2. split; apply Qmult_le_compat_r; assumption.
    - assert (E : (heft now off w == 0)%Q) by lra. rewrite E. split; lra. }
  split; lra.
Qed.
Lemma heft_pos now off w : 0 <= occ w -> 0 <= first w <= latest w -> latest w <= now -> 0 < off -> (0 <= heft now off w)%Q.
Proof.
  intros H1 H2 H3 H4. unfold heft. apply Qle_shift_div_l; [ change 0%Q with (inject_Z 0); rewrite <- Zlt_Qlt; lia |]. setoid_replace (0 * inject_Z (latest w - first w + 2 * (now - latest w) + off))%Q with (inject_Z 0) by ring. rewrite <- Zle_Qle. lia.
Qed.
Lemma heft_zero now off w : first w <= latest w -> latest w <= now -> 0 < off -> (heft now off w == 0)%Q <-> occ w = 0.
Proof.
  intros H2 H3 H4. unfold heft. set (d := latest w - first w + 2 * (now - latest w) + off). assert (D : (0 < inject_Z d)%Q) by (change 0%Q with (inject_Z 0); rewrite <- Zlt_Qlt; unfold d; lia). split.
  - intros E. assert (E' : (inject_Z (occ w) == 0)%Q). { setoid_replace (inject_Z (occ w)) with (inject_Z (occ w) / inject_Z d * inject_Z d)%Q by (field; lra). rewrite E. ring. } unfold Qeq in E'. cbn in E'. lia.
  - intros ->. unfold Qdiv. change (inject_Z 0) with 0%Q. ring.
Qed.

Section Image.
  Context (c : config) (sc : scene) (st : state) (Hm : (0 < most c)%nat) (Hg : (0 < globals c)%nat) (Hl : PawcsFrame.live_ok c sc (frame (lev st)) st) (Hk : known st).
  Lemma words_are b k : 0 <= b -> b + Z.of_nat k <= Z.of_nat (length (pxs sc)) * Z.of_nat (locals c) ->
    exists ws, words_of (dict st) b k = Done ws /\ length ws = k /\ listed (dict st) b ws /\ forall w, In w ws -> valid_word (ch c) (frame (lev st)) w.
  Proof.
    destruct Hl as [[_ _ _ [D1 D2 D3] I5 _ _ _ _] _]. revert b. induction k as [|k IH]; intros b Hb He.
    - exists []. split; [ reflexivity |]. split; [ reflexivity |]. split; [ intros [|x] w E; discriminate | intros w [] ].
    - destruct (slot (dict st) b) as [p|] eqn:Ep; [| exfalso; apply (I5 b); [ rewrite D2; lia | unfold WordDict.val; rewrite Ep; reflexivity ] ]. destruct (IH (b + 1) ltac:(lia) ltac:(lia)) as (ws & E & L & Li & V).
      assert (Sh : shown (dict st) b = Some (cells (dict st) (snd p))) by (unfold shown; rewrite Ep; reflexivity).
      exists (cells (dict st) (snd p) :: ws). cbn [words_of].
      assert (W : word_at (dict st) b = Done (cells (dict st) (snd p))).
      { apply WordDict.word_ok; [ exact D1 | rewrite D2; lia | exact Sh ]. }
      rewrite W. cbn [obind]. rewrite E. cbn [obind]. split; [ reflexivity |]. split; [ cbn; lia |]. split.
      + intros [|x] w X; cbn [nth_error] in X; [ injection X as <-; rewrite Z.add_0_r; exact Sh |]. replace (b + Z.of_nat (S x)) with (b + 1 + Z.of_nat x) by lia. exact (Li x w X).
      + intros w [<-|I]; [| exact (V w I) ]. apply PawcsSpec.valid_of. eapply WordDict.cells_val; [ exact D1 | exact D3 | rewrite D2; split; [ exact Hb | lia ] | exact Sh ].
  Qed.
  Lemma mean_ok val b k ws : words_of (dict st) b k = Done ws -> (forall w, In w ws -> valid_word (ch c) (frame (lev st)) w) ->
    (mean (frame (lev st)) (woff (lev st)) val ws = None /\ (forall w, In w ws -> occ w = 0)) \/
    exists q, mean (frame (lev st)) (woff (lev st)) val ws = Some q /\ (exists w, In w ws /\ 0 < occ w) /\ (q * mass (frame (lev st)) (woff (lev st)) ws == weigh (frame (lev st)) (woff (lev st)) val ws)%Q /\
      forall lo hi, (forall w, In w ws -> 0 < occ w -> lo <= val w <= hi) -> (inject_Z lo <= q <= inject_Z hi)%Q.
  Proof.
    intros E V. set (now := frame (lev st)) in *. set (off := woff (lev st)) in *. assert (Ho : 0 < off) by (unfold off; destruct Hk as [-> | ->]; lia).
    assert (Hh : forall w, In w ws -> (0 <= heft now off w)%Q) by (intros w I; destruct (V w I) as [_ _ [D1 D2] D3]; apply heft_pos; assumption).
    unfold mean. set (t := fold_left (fun x w => Qred (x + weight now off w)%Q) ws 0%Q). set (v := fold_left _ ws 0%Q).
    assert (Et : (t == mass now off ws)%Q) by (unfold t; rewrite fold_mass; ring). assert (Ev : (v == weigh now off val ws)%Q) by (unfold v; rewrite fold_weigh; ring).
    destruct (Qeq_bool t 0) eqn:Z0.
    - left. split; [ reflexivity |]. apply Qeq_bool_iff in Z0. rewrite Et in Z0. intros w I. destruct (V w I) as [_ _ [[D0 D1] D2] _]. apply (heft_zero now off w D1 D2 Ho). apply (proj1 (mass_zero now off ws Hh) Z0 w I).
    - right. apply Qeq_bool_neq in Z0. rewrite Et in Z0. pose proof (mass_pos now off ws Hh) as P. exists (v / t)%Q. split; [ reflexivity |]. split; [| split ].
      + destruct (existsb (fun w => 0 <? occ w) ws) eqn:X; [ apply existsb_exists in X; destruct X as (w & I & L); apply Z.ltb_lt in L; eauto |]. exfalso. apply Z0. apply (mass_zero now off ws Hh). intros w I.
        destruct (V w I) as [_ _ [[D0 D1] D2] D3]. apply (heft_zero now off w D1 D2 Ho). destruct (Z.ltb_spec 0 (occ w)) as [L|L]; [| lia ]. assert (existsb (fun w => 0 <? occ w) ws = true) by (apply existsb_exists; exists w; split; [ exact I | now apply Z.ltb_lt ]). congruence.
      + rewrite Et, Ev. field. exact Z0.
      + intros lo hi B. assert (B' : forall w, In w ws -> (0 < heft now off w)%Q -> lo <= val w <= hi).
        { intros w I L. apply B; [ exact I |]. destruct (V w I) as [_ _ [[D0 D1] D2] D3]. assert (occ w <> 0) by (intros X; apply (heft_zero now off w D1 D2 Ho) in X; lra). lia. }
        destruct (weigh_between now off val ws lo hi Hh B') as [W1 W2]. assert (M : (0 < mass now off ws)%Q) by (apply Qnot_le_lt; intros L; apply Z0; lra).
        rewrite Et, Ev. split; [ apply Qle_shift_div_l | apply Qle_shift_div_r ]; assumption.
  Qed.
End Image.

(* ------------------------------------------------------------------ objects *)
Definition single : config := {| ch := 1; minc := 20; doff := 2; most := 1; globals := 2; avgs := 100; rel := 1 # 3; offset := 0; filtered := plain_mask; grown := plain_mask |}.
Definition alone : outcome (scene * state) := initialize single lcg (nothing no_word, nothing no_gword, true, O) None None (8, 8) picture.
Lemma alone_def : alone = initialize single lcg (nothing no_word, nothing no_gword, true, O) None None (8, 8) picture. Proof. reflexivity. Qed.
Lemma alone_begun sc st : alone = Done (sc, st) -> begun single lcg (8, 8) picture sc st.
Proof. rewrite alone_def. intros E. split; [ unfold usable; cbn; lia |]. split; [ exact lcg_pos |]. split; [ exact picture_bytes |]. exists true, O, None, None. exact E. Qed.
Definition blackout (sc : scene) (st : state) : bool := (1 <=? Z.of_nat (length (pxs sc))) && match play single lcg sc [Refresh 0 1 true] st with Done s => match background single sc s 0 0 with Done None => true | _ => false end | _ => false end.
Lemma blackout_split sc st : blackout sc st = true -> 1 <= Z.of_nat (length (pxs sc)) /\ exists s, play single lcg sc [Refresh 0 1 true] st = Done s /\ background single sc s 0 0 = Done None.
Proof.
  unfold blackout. intros H. apply andb_true_iff in H. destruct H as [H1 H]. split; [ now apply Z.leb_le |]. destruct (play single lcg sc [Refresh 0 1 true] st) as [s| | |]; try discriminate. exists s. split; [ reflexivity |]. destruct (background single sc s 0 0) as [[|]| | |]; try discriminate. reflexivity.
Qed.
Lemma alone_blackout : tested blackout alone = true. Proof. vm_compute. reflexivity. Qed.
Lemma no_background : exists c rnd sc l st, reached c rnd (8, 8) picture sc l st /\ pxs sc <> [] /\ background c sc st 0 0 = Done None.
Proof.
  destruct (tested_of _ _ alone_blackout) as (sc & st0 & Es & Eb). apply blackout_split in Eb. destruct Eb as (El & st & P & Bk). exists single, lcg, sc, [Refresh 0 1 true], st. split; [| split; [ intros X; rewrite X in El; cbn in El; lia | exact Bk ] ].
  exists st0. split; [ exact (alone_begun _ _ Es) | split; [ cbn; lia | split; [ repeat constructor; cbn; lia | exact P ] ] ].
Qed.
Definition mixed (sc : scene) (st : state) : bool := (5 <=? Z.of_nat (length (pxs sc))) &&
  match background_descriptor grey_config sc st 4 0 with Done (Some q) => Z.testbit (half_even q) 4 | _ => false end &&
  match words_of (dict st) 8 2 with Done ws => forallb (fun w => negb (Z.testbit (nth 0 (tex w) 0) 4)) ws | _ => false end.
Lemma started_mixed : tested mixed started = true. Proof. vm_compute. reflexivity. Qed.
Lemma mixed_split sc st : mixed sc st = true -> 5 <= Z.of_nat (length (pxs sc)) /\ (exists q, background_descriptor grey_config sc st 4 0 = Done (Some q) /\ Z.testbit (half_even q) 4 = true) /\
  exists ws, words_of (dict st) 8 2 = Done ws /\ Forall (fun w => Z.testbit (nth 0 (tex w) 0) 4 = false) ws.
Proof.
  unfold mixed. rewrite !andb_true_iff. intros [[H1 H2] H3]. split; [ now apply Z.leb_le |]. split.
  - destruct (background_descriptor grey_config sc st 4 0) as [[q|]| | |]; try discriminate. eauto.
  - destruct (words_of (dict st) 8 2) as [ws| | |]; try discriminate. exists ws. split; [ reflexivity |]. apply Forall_forall. intros w I. rewrite forallb_forall in H3. apply H3 in I. now apply negb_true_iff in I.
Qed.

