From Coq Require Import ZArith QArith Qabs Qfield List Bool Lia Lqa Permutation.
From Verif Require Import Lib.Grid Model.Metrics Spec.Metrics Spec.MetricsTree Proofs.Metrics.
Import ListNotations.
Open Scope Z_scope.

Section Ind.
Variable P : batch -> Prop.
Hypothesis HW : forall n c, P (Work n c).
Hypothesis HG : forall bare l, Forall P l -> P (Group bare l).
Fixpoint batch_ind' (b : batch) : P b :=
  match b with
  | Work n c => HW n c
  | Group bare l => HG bare l ((fix go (l : list batch) : Forall P l := match l with [] => Forall_nil _ | x :: r => Forall_cons x (batch_ind' x) (go r) end) l)
  end.
End Ind.

Lemma zsum_app l l' : zsum_list (l ++ l') = zsum_list l + zsum_list l'.
Proof. induction l; cbn [app zsum_list fold_right]; [ reflexivity |]. fold (zsum_list (l ++ l')). fold (zsum_list l). lia. Qed.
Lemma produced_group bare x l : produced (Group bare (x :: l)) = produced x + produced (Group bare l).
Proof. unfold produced. cbn [leaves flat_map]. now rewrite map_app, zsum_app. Qed.
Lemma outputs_produced b : (forall n c, In (n, c) (leaves b) -> 0 <= n < 18446744073709551616) -> outputs b = wrap (produced b).
Proof.
  induction b as [n c | bare l IH] using batch_ind'; intro B.
  - unfold produced. cbn. rewrite Z.add_0_r. symmetry. apply wrap_small. apply (B n c). now left.
  - cbn [outputs]. induction IH as [|x l Hx Hl IHl]; [ reflexivity |]. cbn [fold_right]. rewrite produced_group.
    rewrite IHl. 2: { intros n c I. apply (B n c). cbn [leaves flat_map]. apply in_or_app. now right. }
    rewrite Hx. 2: { intros n c I. apply (B n c). cbn [leaves flat_map]. apply in_or_app. now left. }
    now rewrite wrap_l, wrap_r.
Qed.

Definition csum (l : list counters) : counters := summed l.
Lemma summed_cons c l : summed (c :: l) = accumulate c (summed l).
Proof.
  unfold summed, accumulate. cbn [nTP nTN nFP nFN nSE nDC map zsum_list fold_right]. unfold wrap. rewrite !Zplus_mod_idemp_r. reflexivity.
Qed.
Lemma summed_app l l' : summed (l ++ l') = accumulate (summed l) (summed l').
Proof.
  unfold summed, accumulate. cbn [nTP nTN nFP nFN nSE nDC]. rewrite !map_app, !zsum_app. unfold wrap. now rewrite <- !Zplus_mod.
Qed.
Lemma summed_good l : good (summed l).
Proof. unfold good, u64, summed. cbn [nTP nTN nFP nFN nSE nDC]. repeat split; apply Z.mod_pos_bound; lia. Qed.
Lemma accumulate_zero_l c : good c -> accumulate zero_counters c = c.
Proof. intros (G1 & G2 & G3 & G4 & G5 & G6). unfold accumulate. cbn [zero_counters nTP nTN nFP nFN nSE nDC]. rewrite !Z.add_0_l, !wrap_small by auto. now destruct c. Qed.
Lemma summed_one c : good c -> summed [c] = c.
Proof. intro G. rewrite summed_cons. change (summed []) with zero_counters. rewrite accumulate_comm. now apply accumulate_zero_l. Qed.
Theorem base_sum b : (forall n c, In (n, c) (leaves b) -> good c) -> metrics_base b = summed (map snd (leaves b)).
Proof.
  induction b as [n c | bare l IH] using batch_ind'; intro G.
  - cbn [metrics_base leaves map snd]. symmetry. apply summed_one. apply (G n). now left.
  - cbn [metrics_base leaves].
    enough (S : forall acc, good acc -> fold_left (fun acc x => accumulate acc (metrics_base x)) l acc = accumulate acc (summed (map snd (flat_map leaves l)))).
    { rewrite S by apply good_zero. apply accumulate_zero_l, summed_good. }
    induction IH as [|x l Hx Hl IHl]; intros acc Ga.
    + cbn. change (summed []) with zero_counters. rewrite accumulate_comm. symmetry. now apply accumulate_zero_l.
    + cbn [fold_left flat_map]. rewrite IHl; [| intros n c I; apply (G n c); cbn [leaves flat_map]; apply in_or_app; now right | apply accumulate_good ].
      rewrite Hx by (intros n c I; apply (G n c); cbn [leaves flat_map]; apply in_or_app; now left). now rewrite map_app, summed_app, accumulate_assoc.
Qed.

Section Avg.
Variable of : counters -> metrics.
Definition rep (m : metrics) (w : Z) (us : list counters) : Prop :=
  us <> [] /\ w = Z.of_nat (length us) /\ forall f, In f fields -> (f m * inject_Z w == qsum (map (fun c => f (of c)) us))%Q.
Lemma qsum_app l l' : (qsum (l ++ l') == qsum l + qsum l')%Q.
Proof.
  induction l as [|a l IH]. { symmetry. apply Qplus_0_l. }
  change (a + qsum (l ++ l') == a + qsum l + qsum l')%Q. rewrite IH. apply Qplus_assoc.
Qed.
Lemma rep_one c : rep (of c) 1 [c].
Proof. split; [ discriminate |]. split; [ reflexivity |]. intros f _. cbn [map qsum fold_right]. change (inject_Z 1) with 1%Q. ring. Qed.
Lemma rep_merge m1 w1 us1 m2 w2 us2 : rep m1 w1 us1 -> rep m2 w2 us2 -> Z.of_nat (length (us1 ++ us2)) < 18446744073709551616 ->
  rep (fst (merge (m1, w1) (m2, w2))) (snd (merge (m1, w1) (m2, w2))) (us1 ++ us2).
Proof.
  intros (N1 & W1 & F1) (N2 & W2 & F2) L. rewrite app_length in L. destruct us1 as [|a us1]; [ congruence |].
  assert (0 < w1) by (subst; cbn [length]; lia). assert (0 <= w2) by lia. assert (Wt : wrap (w1 + w2) = w1 + w2) by (apply wrap_small; lia).
  split; [ discriminate |]. split. { cbn [merge snd]. rewrite Wt, app_length. lia. }
  intros f I. pose proof (F1 f I) as E1. pose proof (F2 f I) as E2. rewrite map_app, qsum_app, <- E1, <- E2.
  pose proof (injZ_pos (w1 + w2) ltac:(lia)) as P. assert (Pn : ~ (inject_Z (w1 + w2) == 0)%Q) by lra.
  cbn [In fields] in I. destruct I as [<- |[<- |[<- |[<- |[<- |[<- |[<- |[<- |[] ]]]]]]]]; cbn [merge fst snd dRecall dSpecificity dFPR dFNR dPBC dPrecision dFMeasure dMCC]; rewrite Wt; field; exact Pn.
Qed.

Fixpoint rest_ (acc : option calc) (l : list batch) : option calc :=
  match l with [] => acc | y :: r => rest_ (if 0 <? outputs y then merge_opt acc (get_metrics of y) else acc) r end.
Fixpoint first_ (l : list batch) : option calc :=
  match l with [] => None | x :: r => if outputs x =? 0 then first_ r else rest_ (get_metrics of x) r end.
Lemma get_group l : get_metrics of (Group false l) = first_ l.
Proof. reflexivity. Qed.

Lemma zsum_nonneg l : (forall v, In v l -> 0 <= v) -> 0 <= zsum_list l.
Proof. induction l as [|a l IH]; intro H; [ cbn; lia |]. cbn [zsum_list fold_right]. fold (zsum_list l). pose proof (H a (or_introl eq_refl)). assert (0 <= zsum_list l) by (apply IH; intros; apply H; now right). lia. Qed.
Lemma zsum_member l v : (forall v, In v l -> 0 <= v) -> In v l -> v <= zsum_list l.
Proof.
  induction l as [|a l IH]; intros H I; [ destruct I |]. cbn [zsum_list fold_right]. fold (zsum_list l). assert (H' : forall v, In v l -> 0 <= v) by (intros; apply H; now right).
  pose proof (zsum_nonneg l H'). destruct I as [->|I]; [ lia |]. pose proof (H a (or_introl eq_refl)). specialize (IH H' I). lia.
Qed.
Lemma produced_nonneg b : (forall n c, In (n, c) (leaves b) -> 0 <= n /\ good c) -> 0 <= produced b.
Proof. intro H. apply zsum_nonneg. intros v I. apply in_map_iff in I. destruct I as ([n c] & <- & I). cbn. now destruct (H n c I). Qed.
Lemma outputs_exact b : (forall n c, In (n, c) (leaves b) -> 0 <= n /\ good c) -> produced b < 18446744073709551616 -> outputs b = produced b.
Proof.
  intros H L. rewrite outputs_produced; [ apply wrap_small; split; auto; now apply produced_nonneg |]. intros n c I. split; [ now destruct (H n c I) |].
  apply Z.le_lt_trans with (produced b); auto. apply zsum_member. { intros v J. apply in_map_iff in J. destruct J as ([n' c'] & <- & J). cbn. now destruct (H n' c' J). }
  apply in_map_iff. now exists (n, c).
Qed.
Lemma wf_parts x l : wf (Group false (x :: l)) -> (produced x <> 0 -> wf x) /\ (forall n c, In (n, c) (leaves x) -> 0 <= n /\ good c) /\ produced x < 18446744073709551616 /\ wf (Group false l).
Proof.
  intros (A & B & C). assert (A1 : forall n c, In (n, c) (leaves x) -> 0 <= n /\ good c) by (intros n c I; apply A; cbn [leaves flat_map]; apply in_or_app; now left).
  assert (A2 : forall n c, In (n, c) (leaves (Group false l)) -> 0 <= n /\ good c) by (intros n c I; apply A; cbn [leaves flat_map]; apply in_or_app; now right).
  rewrite produced_group in B. pose proof (produced_nonneg x A1). pose proof (produced_nonneg (Group false l) A2). cbn [units flat_map] in C. rewrite app_length in C.
  split; [| split; [ auto | split; [ lia | split; [ auto | split; [ lia |] ] ] ] ].
  - intro N. split; [ auto | split; [ lia |] ]. destruct (Z.eqb_spec (produced x) 0); [ congruence |]. lia.
  - cbn [units]. lia.
Qed.
Lemma rest_ok l : Forall (fun x => wf x -> produced x <> 0 -> exists m w, get_metrics of x = Some (m, w) /\ rep m w (units x)) l ->
  forall m w us, wf (Group false l) -> rep m w us -> Z.of_nat (length (us ++ units (Group false l))) < 18446744073709551616 ->
  exists m' w', rest_ (Some (m, w)) l = Some (m', w') /\ rep m' w' (us ++ units (Group false l)).
Proof.
  induction 1 as [|x l Hx Hl IH]; intros m w us W R L.
  - cbn [rest_ units flat_map]. rewrite app_nil_r. eauto.
  - destruct (wf_parts _ _ W) as (Wx & Ax & Bx & Wl). cbn [rest_]. rewrite (outputs_exact x) by auto. pose proof (produced_nonneg x Ax).
    assert (U : units (Group false (x :: l)) = (if produced x =? 0 then [] else units x) ++ units (Group false l)) by reflexivity. rewrite U in *. rewrite app_assoc in *.
    destruct (Z.ltb_spec 0 (produced x)) as [P|P].
    + destruct (Z.eqb_spec (produced x) 0); [ lia |]. destruct (Hx (Wx ltac:(lia)) ltac:(lia)) as (m2 & w2 & E2 & R2). rewrite E2. cbn [merge_opt].
      rewrite app_length in L. pose proof (rep_merge _ _ _ _ _ _ R R2 ltac:(lia)) as R'.
      destruct (merge (m, w) (m2, w2)) as [m3 w3]. apply IH; auto. rewrite app_length. exact L.
    + destruct (Z.eqb_spec (produced x) 0); [| lia ]. rewrite app_nil_r in *. apply IH; auto.
Qed.
Theorem average_units : forall b, wf b -> (match b with Work _ _ => True | Group true _ => True | Group false _ => produced b <> 0 end) ->
  exists m w, get_metrics of b = Some (m, w) /\ rep m w (units b).
Proof.
  induction b as [n c | bare l IH] using batch_ind'; intros W P.
  - cbn [get_metrics units]. eauto using rep_one.
  - destruct bare.
    + cbn [get_metrics units]. exists (of (metrics_base (Group true l))), 1. split; auto. rewrite base_sum. { cbn [leaves]. apply rep_one. } destruct W as (A & _). intros n c I. now destruct (A n c I).
    + rewrite get_group.
      assert (IH' : Forall (fun x => wf x -> produced x <> 0 -> exists m w, get_metrics of x = Some (m, w) /\ rep m w (units x)) l).
      { eapply Forall_impl; [| exact IH ]. cbn beta. intros x Hx Wx Nx. apply Hx; auto. destruct x as [|[] ]; auto. }
      clear IH. induction l as [|x l IHl]; [ now elim P |]. cbn [first_]. inversion IH' as [|x' l' Hx Hl]; subst. destruct (wf_parts _ _ W) as (Wx & Ax & Bx & Wl).
      rewrite (outputs_exact x) by auto. pose proof W as (_ & _ & Wu).
      assert (U : units (Group false (x :: l)) = (if produced x =? 0 then [] else units x) ++ units (Group false l)) by reflexivity. rewrite U in *.
      destruct (Z.eqb_spec (produced x) 0) as [E0|E0].
      * cbn [app]. apply IHl; auto. rewrite produced_group in P. lia.
      * destruct (Hx (Wx E0) E0) as (m & w & E & R). rewrite E. apply rest_ok; auto.
Qed.
Theorem average_none l : wf (Group false l) -> produced (Group false l) = 0 -> get_metrics of (Group false l) = None.
Proof.
  intros W. rewrite get_group. induction l as [|x l IH]; intro P; auto. destruct (wf_parts _ _ W) as (Wx & Ax & Bx & Wl). cbn [first_]. rewrite produced_group in P. rewrite (outputs_exact x) by auto.
  pose proof (produced_nonneg x Ax). pose proof Wl as (A & _). pose proof (produced_nonneg _ A). destruct (Z.eqb_spec (produced x) 0); [| lia ]. apply IH; [ exact Wl | lia ].
Qed.
Lemma qsum_bounds (f : counters -> Q) lo hi us : (forall c, In c us -> (lo <= f c <= hi)%Q) ->
  (lo * inject_Z (Z.of_nat (length us)) <= qsum (map f us) <= hi * inject_Z (Z.of_nat (length us)))%Q.
Proof.
  induction us as [|a us IH]; intro H; [ cbn; change (inject_Z 0) with 0%Q; lra |]. cbn [map qsum fold_right length]. fold (qsum (map f us)). rewrite Nat2Z.inj_succ. unfold Z.succ. rewrite inject_Z_plus. change (inject_Z 1) with 1%Q.
  pose proof (H a (or_introl eq_refl)). assert ((lo * inject_Z (Z.of_nat (length us)) <= qsum (map f us) <= hi * inject_Z (Z.of_nat (length us)))%Q) by (apply IH; intros; apply H; now right). lra.
Qed.
Theorem average_bounds b m w f lo hi : wf b -> get_metrics of b = Some (m, w) -> In f fields -> (match b with Work _ _ => True | Group true _ => True | Group false _ => produced b <> 0 end) ->
  (forall c, In c (units b) -> (lo <= f (of c) <= hi)%Q) -> (lo <= f m <= hi)%Q.
Proof.
  intros W E I P H. destruct (average_units b W P) as (m' & w' & E' & RR). assert (m' = m) by congruence. assert (w' = w) by congruence. subst m' w'. destruct RR as (N & Ew & R).
  specialize (R f I). pose proof (qsum_bounds (fun c => f (of c)) lo hi (units b) H) as B. rewrite <- R, <- Ew in B.
  assert (0 < w) by (subst w; destruct (units b); [ congruence | cbn [length]; lia ]). pose proof (injZ_pos w H0). nra.
Qed.
End Avg.
