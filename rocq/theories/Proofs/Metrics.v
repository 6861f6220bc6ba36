From Coq Require Import ZArith QArith Qabs Qfield List Bool Lia Lqa Permutation.
From Verif Require Import Lib.Grid Model.Metrics Spec.Metrics Spec.MetricsTree.
Import ListNotations.
Open Scope Z_scope.

Lemma wrap_small v : 0 <= v < 18446744073709551616 -> wrap v = v.
Proof. intro B. unfold wrap. now apply Z.mod_small. Qed.
Lemma wrap_range v : 0 <= wrap v < 18446744073709551616.
Proof. apply Z.mod_pos_bound. lia. Qed.
Lemma wrap_l a b : wrap (wrap a + b) = wrap (a + b).
Proof. unfold wrap. apply Zplus_mod_idemp_l. Qed.
Lemma wrap_r a b : wrap (a + wrap b) = wrap (a + b).
Proof. unfold wrap. apply Zplus_mod_idemp_r. Qed.
Definition b2z (b : bool) : Z := if b then 1 else 0.

(** ** counting *)
Definition px := (Z * Z * option Z)%type.
Definition roi_ok (r : option Z) : bool := match r with None => true | Some v => negb (v =? 0) end.
Definition cls (k : class) (p : px) : bool := let '(i, g, r) := p in class_eqb (classify i g (roi_ok r)) k.
Definition shd (p : px) : bool := let '(i, g, r) := p in shadow_error i g (roi_ok r).
Definition add_counts (c : counters) (a b d e f h : Z) : counters :=
  Cnt (wrap (nTP c + a)) (wrap (nTN c + b)) (wrap (nFP c + d)) (wrap (nFN c + e)) (wrap (nSE c + f)) (wrap (nDC c + h)).
Lemma good_add c a b d e f h : good (add_counts c a b d e f h).
Proof. unfold good, u64, add_counts. cbn [nTP nTN nFP nFN nSE nDC]. repeat split; apply wrap_range. Qed.
Lemma count_pixel_step c i g r : good c ->
  count_pixel c i g r = add_counts c (b2z (cls TruePos (i, g, r))) (b2z (cls TrueNeg (i, g, r))) (b2z (cls FalsePos (i, g, r))) (b2z (cls FalseNeg (i, g, r)))
                          (b2z (shd (i, g, r))) (b2z (cls DontCare (i, g, r))).
Proof.
  intros (G1 & G2 & G3 & G4 & G5 & G6). unfold count_pixel, scored, cls, shd, classify, shadow_error, add_counts, POS, NEG, OUT, UNK, SHD.
  assert (Er : match r with None => true | Some v => negb (v =? 0) end = roi_ok r) by reflexivity. rewrite Er.
  destruct (roi_ok r).
  - cbn [negb]. rewrite andb_true_r, orb_false_r. cbn [andb].
    destruct (Z.eqb_spec g 85) as [->|N1]. { cbn [Z.eqb Pos.eqb negb andb orb class_eqb b2z]. rewrite ?andb_false_r. cbn [b2z]. rewrite !Z.add_0_r, (wrap_small (nTP c)), (wrap_small (nTN c)), (wrap_small (nFP c)), (wrap_small (nFN c)), (wrap_small (nSE c)) by auto. reflexivity. }
    destruct (Z.eqb_spec g 170) as [->|N2]. { cbn [Z.eqb Pos.eqb negb andb orb class_eqb b2z]. rewrite ?andb_false_r. cbn [b2z]. rewrite !Z.add_0_r, (wrap_small (nTP c)), (wrap_small (nTN c)), (wrap_small (nFP c)), (wrap_small (nFN c)), (wrap_small (nSE c)) by auto. reflexivity. }
    cbn [negb andb orb]. destruct (i =? 255), (Z.eqb_spec g 255) as [->|N3]; cbn [andb class_eqb b2z nTP nTN nFP nFN nSE nDC Z.eqb Pos.eqb].
    all: rewrite ?Z.add_0_r, ?(wrap_small (nTP c)), ?(wrap_small (nTN c)), ?(wrap_small (nFP c)), ?(wrap_small (nFN c)), ?(wrap_small (nDC c)) by auto.
    all: try (match goal with |- context [?x =? 50] => destruct (x =? 50) end); cbn [b2z nTP nTN nFP nFN nSE nDC]; rewrite ?Z.add_0_r, ?(wrap_small (nSE c)) by auto; reflexivity.
  - cbn [negb]. rewrite andb_false_r, orb_true_r. cbn [class_eqb andb b2z]. rewrite !Z.add_0_r, ?(wrap_small (nTP c)), ?(wrap_small (nTN c)), ?(wrap_small (nFP c)), ?(wrap_small (nFN c)), ?(wrap_small (nSE c)) by auto. reflexivity.
Qed.
Lemma add_counts_twice c a b d e f h a' b' d' e' f' h' :
  add_counts (add_counts c a b d e f h) a' b' d' e' f' h' = add_counts c (a + a') (b + b') (d + d') (e + e') (f + f') (h + h').
Proof. unfold add_counts. cbn [nTP nTN nFP nFN nSE nDC]. rewrite !wrap_l, !Z.add_assoc. reflexivity. Qed.
Lemma add_counts_zero c : good c -> add_counts c 0 0 0 0 0 0 = c.
Proof. intros (G1 & G2 & G3 & G4 & G5 & G6). unfold add_counts. rewrite !Z.add_0_r, !wrap_small by auto. now destruct c. Qed.
Definition count_list (c : counters) (l : list px) : counters := fold_left (fun c p => let '(i, g, r) := p in count_pixel c i g r) l c.
Lemma count_list_ok : forall l c, good c ->
  count_list c l = add_counts c (count (cls TruePos) l) (count (cls TrueNeg) l) (count (cls FalsePos) l) (count (cls FalseNeg) l) (count shd l) (count (cls DontCare) l).
Proof.
  induction l as [|[[i g] r] l IH]; intros c G.
  - cbn. symmetry. now apply add_counts_zero.
  - change (count_list c ((i, g, r) :: l)) with (count_list (count_pixel c i g r) l). rewrite count_pixel_step by auto. rewrite IH by apply good_add.
    rewrite add_counts_twice, !count_cons. reflexivity.
Qed.
Lemma classes_partition : forall l, count (cls TruePos) l + count (cls TrueNeg) l + count (cls FalsePos) l + count (cls FalseNeg) l + count (cls DontCare) l = Z.of_nat (length l).
Proof.
  induction l as [|[[i g] r] l IH]; [ reflexivity |]. rewrite !count_cons. cbn [length]. unfold cls at 1 3 5 7 9. destruct (classify i g (roi_ok r)); cbn [class_eqb]; lia.
Qed.
Lemma shd_le l : count shd l <= count (cls FalsePos) l.
Proof.
  apply count_mono. intros [[i g] r] _. unfold shd, cls, shadow_error, classify. rewrite !andb_true_iff, !Z.eqb_eq. intros [[-> ->] ->]. reflexivity.
Qed.

(** on matrices *)
Definition pixel (cl g : mat) (roi : option mat) (p : Z * Z) : px := (at_ cl (fst p) (snd p), at_ g (fst p) (snd p), match roi with None => None | Some r => Some (at_ r (fst p) (snd p)) end).
Definition pixels (cl g : mat) (roi : option mat) : list px := map (pixel cl g roi) (grid 0 (mrows cl) 0 (mcols cl)).
Lemma at_same m cl i j : continuous cl = true -> mat_ok m cl -> 0 <= i < mrows cl -> mdata m (i * mstep cl + j) = at_ m i j.
Proof.
  intros C (R & W & C') B. unfold at_. unfold continuous in *. rewrite orb_true_iff, !Z.eqb_eq in *. f_equal.
  destruct (Z.eq_dec (mrows cl) 1). { assert (i = 0) by lia. subst. lia. } assert (mstep cl = mcols cl) by lia. assert (mstep m = mcols m) by lia. rewrite H, H0, W. reflexivity.
Qed.
Lemma fold_left_map {A B C} (f : A -> B -> A) (g : C -> B) l a : fold_left f (map g l) a = fold_left (fun x y => f x (g y)) l a.
Proof. revert a. induction l; intro a0; cbn; auto. Qed.
Lemma fold_left_ext {A B} (f g : A -> B -> A) l : (forall a b, In b l -> f a b = g a b) -> forall a, fold_left f l a = fold_left g l a.
Proof. induction l as [|b l IH]; intros E a; cbn; auto. rewrite E by now left. apply IH. intros. apply E. now right. Qed.
Lemma mats_list c cl g roi : frame_ok cl (Some g) roi -> accumulate_mats c cl (Some g) roi = Some (count_list c (pixels cl g roi)).
Proof.
  intros (R & W & C & Hg & Hr). specialize (Hg g eq_refl). pose proof Hg as (G1 & G2 & G3). unfold accumulate_mats.
  rewrite (proj2 (Z.ltb_lt 0 (mrows cl)) R), (proj2 (Z.ltb_lt 0 (mcols cl)) W), C, G3, G1, G2, !Z.eqb_refl. cbn [andb].
  assert (match roi with Some r => (mrows r =? mrows cl) && (mcols r =? mcols cl) | None => true end = true) as ->.
  { destruct roi as [r|]; auto. destruct (Hr r eq_refl) as (-> & -> & _). rewrite !Z.eqb_refl. reflexivity. }
  cbn [negb]. f_equal. unfold count_list, pixels. rewrite fold_left_map. apply fold_left_ext. intros a [i j] I. apply in_grid in I. cbn [fst snd] in *. unfold pixel. cbn [fst snd].
  rewrite (at_same g cl) by (auto; lia). destruct roi as [r|]; [ rewrite (at_same r cl) by (auto; lia) |]; reflexivity.
Qed.
Lemma len_pixels cl g roi : 0 < mrows cl -> 0 < mcols cl -> Z.of_nat (length (pixels cl g roi)) = mrows cl * mcols cl.
Proof. intros R W. unfold pixels. rewrite map_length. apply grid_length; lia. Qed.

Theorem accumulate_counts c cl g roi : good c -> frame_ok cl (Some g) roi ->
  let cnt k := count (fun p => class_eqb (classify (at_ cl (fst p) (snd p)) (at_ g (fst p) (snd p)) (match roi with None => true | Some r => negb (at_ r (fst p) (snd p) =? 0) end)) k) (grid 0 (mrows cl) 0 (mcols cl)) in
  let se := count (fun p => shadow_error (at_ cl (fst p) (snd p)) (at_ g (fst p) (snd p)) (match roi with None => true | Some r => negb (at_ r (fst p) (snd p) =? 0) end)) (grid 0 (mrows cl) 0 (mcols cl)) in
  accumulate_mats c cl (Some g) roi =
    Some (Cnt (wrap (nTP c + cnt TruePos)) (wrap (nTN c + cnt TrueNeg)) (wrap (nFP c + cnt FalsePos)) (wrap (nFN c + cnt FalseNeg)) (wrap (nSE c + se)) (wrap (nDC c + cnt DontCare))) /\
  cnt TruePos + cnt TrueNeg + cnt FalsePos + cnt FalseNeg + cnt DontCare = mrows cl * mcols cl /\ se <= cnt FalsePos.
Proof.
  intros G F cnt se. pose proof F as (R & W & _).
  assert (E : forall k, cnt k = count (cls k) (pixels cl g roi)).
  { intro k. unfold cnt, pixels. rewrite count_map. apply count_ext_in. intros p _. unfold cls, pixel, roi_ok. destruct roi; reflexivity. }
  assert (Es : se = count shd (pixels cl g roi)).
  { unfold se, pixels. rewrite count_map. apply count_ext_in. intros p _. unfold shd, pixel, roi_ok. destruct roi; reflexivity. }
  rewrite !E, Es. split; [| split ].
  - rewrite mats_list, count_list_ok by auto. reflexivity.
  - rewrite classes_partition. now apply len_pixels.
  - apply shd_le.
Qed.
Theorem accumulate_no_gt c cl roi : frame_ok cl None roi -> accumulate_mats c cl None roi =
  Some (Cnt (nTP c) (nTN c) (nFP c) (nFN c) (nSE c) (wrap (nDC c + mrows cl * mcols cl))).
Proof.
  intros (R & W & C & Hg & Hr). unfold accumulate_mats. rewrite (proj2 (Z.ltb_lt 0 (mrows cl)) R), (proj2 (Z.ltb_lt 0 (mcols cl)) W), C. cbn [andb].
  assert (match roi with Some r => (mrows r =? mrows cl) && (mcols r =? mcols cl) | None => true end = true) as ->.
  { destruct roi as [r|]; auto. destruct (Hr r eq_refl) as (-> & -> & _). rewrite !Z.eqb_refl. reflexivity. }
  reflexivity.
Qed.

(** ** additivity and order *)
Lemma add_counts_accumulate c a b d e f h : add_counts c a b d e f h = accumulate c (add_counts zero_counters a b d e f h).
Proof. unfold accumulate, add_counts. cbn [nTP nTN nFP nFN nSE nDC zero_counters]. rewrite !Z.add_0_l, !wrap_r. reflexivity. Qed.
Lemma good_zero : good zero_counters.
Proof. unfold good, u64, zero_counters. cbn [nTP nTN nFP nFN nSE nDC]. lia. Qed.
Lemma accumulate_comm a b : accumulate a b = accumulate b a.
Proof. unfold accumulate. f_equal; f_equal; lia. Qed.
Lemma accumulate_assoc a b c : accumulate (accumulate a b) c = accumulate a (accumulate b c).
Proof. unfold accumulate. cbn [nTP nTN nFP nFN nSE nDC]. rewrite !wrap_l, !wrap_r, !Z.add_assoc. reflexivity. Qed.
Lemma accumulate_good a b : good (accumulate a b).
Proof. unfold good, u64, accumulate. cbn [nTP nTN nFP nFN nSE nDC]. repeat split; apply wrap_range. Qed.
Lemma mats_asserts c c' cl gt roi : accumulate_mats c cl gt roi = None <-> accumulate_mats c' cl gt roi = None.
Proof. unfold accumulate_mats. match goal with |- context [negb ?b] => destruct (negb b) end; [ tauto |]. destruct gt; split; discriminate. Qed.
Lemma mats_fold c cl g roi c' : good c -> accumulate_mats c cl (Some g) roi = Some c' ->
  exists l, forall d, accumulate_mats d cl (Some g) roi = Some (count_list d l).
Proof.
  intros G E. unfold accumulate_mats in *. match goal with |- context [negb ?b] => destruct (negb b) end; [ discriminate |].
  exists (map (fun p => let a := fst p * mstep cl + snd p in (mdata cl a, mdata g a, match roi with None => None | Some r => Some (mdata r a) end)) (grid 0 (mrows cl) 0 (mcols cl))).
  intro d. f_equal. unfold count_list. now rewrite fold_left_map.
Qed.
Theorem mats_additive c cl gt roi : good c -> accumulate_mats c cl gt roi =
  match accumulate_mats zero_counters cl gt roi with Some d => Some (accumulate c d) | None => None end.
Proof.
  intro G. destruct (accumulate_mats zero_counters cl gt roi) as [d|] eqn:E.
  - destruct gt as [g|].
    + destruct (mats_fold _ _ _ _ _ good_zero E) as (l & L). rewrite L in *. assert (d = count_list zero_counters l) as -> by congruence. f_equal. rewrite !count_list_ok by (auto using good_zero). apply add_counts_accumulate.
    + unfold accumulate_mats in *. match goal with |- context [negb ?b] => destruct (negb b) end; [ discriminate |].
      assert (d = Cnt 0 0 0 0 0 (wrap (0 + mrows cl * mcols cl))) as -> by (cbn [nTP nTN nFP nFN nSE nDC zero_counters] in E; congruence).
      destruct G as (G1 & G2 & G3 & G4 & G5 & G6). unfold accumulate. cbn [nTP nTN nFP nFN nSE nDC]. rewrite Z.add_0_l, wrap_r, !Z.add_0_r, (wrap_small (nTP c)), (wrap_small (nTN c)), (wrap_small (nFP c)), (wrap_small (nFN c)), (wrap_small (nSE c)) by auto. reflexivity.
  - apply (mats_asserts zero_counters c) in E. exact E.
Qed.
Lemma frames_none l : fold_left (fun o f => let '(cl, gt, roi) := f in match o with Some c => accumulate_mats c cl gt roi | None => None end) (l : list frame) None = None.
Proof. induction l as [|[[cl gt] roi] l IH]; auto. Qed.
Lemma mats_good c cl gt roi d : good c -> accumulate_mats c cl gt roi = Some d -> good d.
Proof. intros G E. rewrite mats_additive in E by auto. destruct (accumulate_mats zero_counters cl gt roi) as [e|]; [| discriminate ]. assert (d = accumulate c e) as -> by congruence. apply accumulate_good. Qed.
Theorem frames_order c l l' : good c -> Permutation l l' -> accumulate_frames c l = accumulate_frames c l'.
Proof.
  intros G P. unfold accumulate_frames.
  enough (S : forall o, (match o with Some c => good c | None => True end) ->
    fold_left (fun o f => let '(cl, gt, roi) := f in match o with Some c => accumulate_mats c cl gt roi | None => None end) l o =
    fold_left (fun o f => let '(cl, gt, roi) := f in match o with Some c => accumulate_mats c cl gt roi | None => None end) l' o) by (apply S; auto).
  clear c G. induction P as [|[[cl gt] roi] l l' P IH|[[cl gt] roi] [[cl' gt'] roi'] l|l l1 l2 P1 IH1 P2 IH2]; intros o Go.
  - reflexivity.
  - cbn [fold_left]. apply IH. destruct o as [c|]; auto. destruct (accumulate_mats c cl gt roi) eqn:E; auto. eapply mats_good; eauto.
  - cbn [fold_left]. destruct o as [c|]; [| auto ]. f_equal. rewrite (mats_additive c cl' gt' roi'), (mats_additive c cl gt roi) by auto.
    destruct (accumulate_mats zero_counters cl' gt' roi') as [d'|] eqn:E', (accumulate_mats zero_counters cl gt roi) as [d|] eqn:E; auto.
    + rewrite (mats_additive (accumulate c d')), (mats_additive (accumulate c d)), E, E' by apply accumulate_good. f_equal.
      rewrite !accumulate_assoc. f_equal. apply accumulate_comm.
    + apply (mats_asserts zero_counters (accumulate c d')) in E. congruence.
    + apply (mats_asserts zero_counters (accumulate c d)) in E'. congruence.
  - rewrite IH1, IH2; auto.
Qed.
(** ** colours *)
Theorem colour_meaning i g r : 0 <= i <= 255 -> In g [0; 50; 85; 170; 255] ->
  (colour i g r = (0, 255, 0) <-> classify i g (roi_ok r) = TruePos) /\
  (colour i g r = (127, 0, 255) <-> classify i g (roi_ok r) = FalseNeg) /\
  (colour i g r = (0, 0, 255) \/ colour i g r = (0, 127, 255) <-> classify i g (roi_ok r) = FalsePos) /\
  (colour i g r = (0, 127, 255) <-> shadow_error i g (roi_ok r) = true) /\
  (classify i g (roi_ok r) = TrueNeg -> colour i g r = (0, 0, 0)).
Proof.
  intros B I. unfold colour, scored, classify, shadow_error, POS, NEG, OUT, UNK, SHD.
  assert (Er : match r with None => true | Some v => negb (v =? 0) end = roi_ok r) by reflexivity. rewrite Er.
  assert (Dc : forall v, (match r with Some r0 => if r0 =? 0 then (127, 127, 127) else (v, v, v) | None => (v, v, v) end) = (127, 127, 127) \/
     (match r with Some r0 => if r0 =? 0 then (127, 127, 127) else (v, v, v) | None => (v, v, v) end) = (v, v, v)). { intro v. destruct r as [r0|]; auto. destruct (r0 =? 0); auto. }
  specialize (Dc i). revert Dc. generalize (match r with Some r0 => if r0 =? 0 then (127, 127, 127) else (i, i, i) | None => (i, i, i) end). intros k Dc.
  destruct (roi_ok r), (Z.eqb_spec i 255) as [Ei|Ei]; cbn [In] in I;
    destruct I as [<- |[<- |[<- |[<- |[<- |[] ]]]]]; cbn [Z.eqb Pos.eqb negb andb orb];
    (repeat split; intros; try discriminate; try reflexivity; try (destruct Dc; congruence); auto;
     try match goal with K : _ \/ _ |- _ => destruct K end; try discriminate; try (destruct Dc; congruence); auto).
Qed.

(** ** metrics *)
Lemma ratio_def a b : 0 < b -> (ratio a b == inject_Z a / inject_Z b)%Q.
Proof. intro B. unfold ratio. now rewrite (proj2 (Z.ltb_lt 0 b) B). Qed.
Lemma ratio_zero a b : b <= 0 -> ratio a b = 0%Q.
Proof. intro B. unfold ratio. destruct (Z.ltb_spec 0 b); auto. lia. Qed.
Lemma injZ_pos b : 0 < b -> (0 < inject_Z b)%Q.
Proof. intro B. unfold Qlt, inject_Z. cbn. lia. Qed.
Lemma injZ_le a b : a <= b -> (inject_Z a <= inject_Z b)%Q.
Proof. intro B. unfold Qle, inject_Z. cbn. lia. Qed.
Lemma ratio_unit a b : 0 <= a -> (0 < b -> a <= b) -> (0 <= ratio a b <= 1)%Q.
Proof.
  intros A B. destruct (Z_lt_dec 0 b) as [P|P]; [| rewrite ratio_zero by lia; split; discriminate ]. rewrite ratio_def by auto. specialize (B P). split.
  - apply Qle_shift_div_l; [ now apply injZ_pos |]. rewrite Qmult_0_l. apply (injZ_le 0). lia.
  - apply Qle_shift_div_r; [ now apply injZ_pos |]. rewrite Qmult_1_l. now apply injZ_le.
Qed.
Lemma ratio_compl a b : 0 < a + b -> (ratio a (a + b) + ratio b (a + b) == 1)%Q.
Proof. intro P. rewrite !ratio_def by auto. rewrite !inject_Z_plus. field. rewrite <- inject_Z_plus. intro E. pose proof (injZ_pos _ P). rewrite E in H. now apply Qlt_irrefl in H. Qed.
Lemma fmeasure_between r p : (0 <= r)%Q -> (0 <= p)%Q -> (r <= p)%Q -> (r <= CalcFMeasure r p <= p)%Q.
Proof.
  intros R P L. unfold CalcFMeasure. destruct (Qlt_le_dec 0 (r + p)) as [S|S].
  - split; [ apply Qle_shift_div_l | apply Qle_shift_div_r ]; auto; nra.
  - split; lra.
Qed.
Lemma fmeasure_comm r p : (CalcFMeasure r p == CalcFMeasure p r)%Q.
Proof.
  unfold CalcFMeasure. destruct (Qlt_le_dec 0 (r + p)) as [S|S], (Qlt_le_dec 0 (p + r)) as [T|T]; try lra. field. lra.
Qed.
Theorem metrics_unit m : small m ->
  (0 <= CalcRecall m <= 1)%Q /\ (0 <= CalcPrecision m <= 1)%Q /\ (0 <= CalcSpecificity m <= 1)%Q /\ (0 <= CalcFPR m <= 1)%Q /\ (0 <= CalcFNR m <= 1)%Q /\
  (0 <= FMeasure m <= 1)%Q /\ (0 <= CalcPBC m <= 100)%Q.
Proof.
  intros (A & B & C & D & T). unfold CalcRecall, CalcPrecision, CalcSpecificity, CalcFPR, CalcFNR, FMeasure, CalcPBC, total.
  assert (R : (0 <= CalcRecall m <= 1)%Q) by (unfold CalcRecall; rewrite wrap_small by lia; apply ratio_unit; lia).
  assert (P : (0 <= CalcPrecision m <= 1)%Q) by (unfold CalcPrecision; rewrite wrap_small by lia; apply ratio_unit; lia).
  split; [ exact R |]. split; [ exact P |].
  split; [ rewrite wrap_small by lia; apply ratio_unit; lia |]. split; [ rewrite wrap_small by lia; apply ratio_unit; lia |].
  split; [ rewrite wrap_small by lia; apply ratio_unit; lia |]. split.
  - destruct (Qlt_le_dec (CalcRecall m) (CalcPrecision m)) as [L|L].
    + pose proof (fmeasure_between (CalcRecall m) (CalcPrecision m)) as F. lra.
    + pose proof (fmeasure_between (CalcPrecision m) (CalcRecall m)) as F. rewrite (fmeasure_comm (CalcRecall m)). lra.
  - rewrite Z.add_0_r, !wrap_small by lia. destruct (Z.ltb_spec 0 (nTP m + nTN m + nFP m + nFN m)) as [Q|Q]; [| split; discriminate ].
    pose proof (injZ_le (nFN m + nFP m) (nTP m + nTN m + nFP m + nFN m) ltac:(lia)) as L1. pose proof (injZ_le 0 (nFN m + nFP m) ltac:(lia)) as L0. change (inject_Z 0) with 0%Q in L0.
    split; [ apply Qle_shift_div_l | apply Qle_shift_div_r ]; try (now apply injZ_pos); lra.
Qed.
Theorem metrics_complements m : small m ->
  (0 < nTP m + nFN m -> (CalcRecall m + CalcFNR m == 1)%Q) /\ (0 < nTN m + nFP m -> (CalcSpecificity m + CalcFPR m == 1)%Q).
Proof.
  intros (A & B & C & D & T). unfold CalcRecall, CalcFNR, CalcSpecificity, CalcFPR. rewrite !wrap_small by lia. split; intro P.
  - now apply ratio_compl. - rewrite (Z.add_comm (nFP m)). now apply ratio_compl.
Qed.
Theorem fmeasure_value m : small m -> (0 < nTP m -> (FMeasure m == inject_Z (2 * nTP m) / inject_Z (2 * nTP m + nFP m + nFN m))%Q) /\ (nTP m = 0 -> (FMeasure m == 0)%Q).
Proof.
  intros (A & B & C & D & T). unfold FMeasure, CalcFMeasure.
  assert (Er : CalcRecall m = ratio (nTP m) (nTP m + nFN m)) by (unfold CalcRecall; now rewrite wrap_small by lia).
  assert (Ep : CalcPrecision m = ratio (nTP m) (nTP m + nFP m)) by (unfold CalcPrecision; now rewrite wrap_small by lia).
  split; intro P.
  - pose proof (ratio_def (nTP m) (nTP m + nFN m) ltac:(lia)) as R. pose proof (ratio_def (nTP m) (nTP m + nFP m) ltac:(lia)) as S. rewrite <- Er in R. rewrite <- Ep in S.
    pose proof (injZ_pos (nTP m) P) as P1. pose proof (injZ_pos (nTP m + nFN m) ltac:(lia)) as P2. pose proof (injZ_pos (nTP m + nFP m) ltac:(lia)) as P3.
    pose proof (injZ_pos (2 * nTP m + nFP m + nFN m) ltac:(lia)) as P4.
    assert (R0 : (0 < CalcRecall m)%Q) by (rewrite R; apply Qlt_shift_div_l; lra). assert (S0 : (0 < CalcPrecision m)%Q) by (rewrite S; apply Qlt_shift_div_l; lra).
    destruct (Qlt_le_dec 0 (CalcRecall m + CalcPrecision m)) as [L|L]; [| lra ].
    rewrite R, S. rewrite !inject_Z_plus, inject_Z_mult in *. change (inject_Z 2) with 2%Q in *. field. repeat split; try lra.
    intro E. nra.
  - rewrite P in *. assert (Z1 : (CalcRecall m == 0)%Q). { rewrite Er. destruct (Z_lt_dec 0 (0 + nFN m)); [ rewrite ratio_def by auto; change (inject_Z 0) with 0%Q; field; pose proof (injZ_pos _ l); lra | rewrite ratio_zero by lia; reflexivity ]. }
    destruct (Qlt_le_dec 0 (CalcRecall m + CalcPrecision m)) as [L|L]; [| reflexivity ]. rewrite Z1 in *. field. lra.
Qed.

Lemma mcc_square a b c d w : 0 <= a -> 0 <= b -> 0 <= c -> 0 <= d -> 0 <= w <= c * d ->
  (a * b - w) * (a * b - w) <= (a + c) * (a + d) * (b + c) * (b + d).
Proof.
  intros A B C D W.
  assert (X : (a * b) * (a * b) <= (a + c) * (a + d) * (b + c) * (b + d)).
  { assert (a * a <= (a + c) * (a + d)) by nia. assert (b * b <= (b + c) * (b + d)) by nia.
    replace ((a * b) * (a * b)) with ((a * a) * (b * b)) by ring. replace ((a + c) * (a + d) * (b + c) * (b + d)) with (((a + c) * (a + d)) * ((b + c) * (b + d))) by ring.
    apply Z.mul_le_mono_nonneg; nia. }
  assert (Y : (c * d) * (c * d) <= (a + c) * (a + d) * (b + c) * (b + d)).
  { assert (c * d <= (a + c) * (a + d)) by nia. assert (c * d <= (b + c) * (b + d)) by nia.
    replace ((a + c) * (a + d) * (b + c) * (b + d)) with (((a + c) * (a + d)) * ((b + c) * (b + d))) by ring. apply Z.mul_le_mono_nonneg; nia. }
  assert (0 <= a * b) by nia. destruct (Z_le_dec w (a * b)).
  - assert ((a * b - w) * (a * b - w) <= (a * b) * (a * b)) by (apply Z.mul_le_mono_nonneg; lia). lia.
  - assert ((w - a * b) * (w - a * b) <= (c * d) * (c * d)) by (apply Z.mul_le_mono_nonneg; lia). nia.
Qed.
Lemma wrap_le v : 0 <= v -> 0 <= wrap v <= v.
Proof. intro P. split; [ apply wrap_range |]. unfold wrap. apply Z.mod_le; lia. Qed.
Theorem mcc_bounded m num den2 : small m -> CalcMCC m = Some (num, den2) ->
  0 < den2 /\ num * num <= den2 /\ den2 = (nTP m + nFP m) * (nTP m + nFN m) * (nTN m + nFP m) * (nTN m + nFN m) /\
  (nFP m * nFN m < 18446744073709551616 -> num = nTP m * nTN m - nFP m * nFN m).
Proof.
  intros (A & B & C & D & T) E. unfold CalcMCC in E. rewrite (wrap_small (nTP m + nFP m)), (wrap_small (nTP m + nFN m)), (wrap_small (nTN m + nFP m)), (wrap_small (nTN m + nFN m)) in E by lia.
  destruct (Z.ltb_spec 0 (nTP m + nFP m)); [| discriminate ]. destruct (Z.ltb_spec 0 (nTP m + nFN m)); [| discriminate ].
  destruct (Z.ltb_spec 0 (nTN m + nFP m)); [| discriminate ]. destruct (Z.ltb_spec 0 (nTN m + nFN m)); [| discriminate ]. cbn [andb] in E.
  assert (En : num = nTP m * nTN m - wrap (nFP m * nFN m)) by congruence.
  assert (Ed : den2 = (nTP m + nFP m) * (nTP m + nFN m) * (nTN m + nFP m) * (nTN m + nFN m)) by congruence.
  rewrite En. split; [ rewrite Ed; apply Z.mul_pos_pos; auto; apply Z.mul_pos_pos; auto; apply Z.mul_pos_pos; auto |]. split; [| split; auto ].
  - rewrite Ed. apply mcc_square; auto. apply wrap_le. nia.
  - intro L. rewrite wrap_small; auto. nia.
Qed.
Theorem mcc_perfect m num den2 : small m -> CalcMCC m = Some (num, den2) -> (0 < num /\ num * num = den2 <-> nFP m = 0 /\ nFN m = 0).
Proof.
  intros S E. destruct (mcc_bounded _ _ _ S E) as (P & _ & Ed & _). pose proof S as (A & B & C & D & T).
  assert (En : num = nTP m * nTN m - wrap (nFP m * nFN m)). { unfold CalcMCC in E. destruct (_ && _) in E; [ congruence | discriminate ]. }
  pose proof (wrap_le (nFP m * nFN m) ltac:(nia)) as W. split.
  - intros [Np Ns]. subst num den2. revert Np Ns W. generalize (wrap (nFP m * nFN m)). intros w Np Ns W.
    set (a := nTP m) in *. set (b := nTN m) in *. set (c := nFP m) in *. set (d := nFN m) in *. clearbody a b c d.
    assert (Pa : 0 < a). { destruct (Z.eq_dec a 0) as [->|]; [ exfalso; rewrite Z.mul_0_l in Np; lia | lia ]. } assert (Pb : 0 < b). { destruct (Z.eq_dec b 0) as [->|]; [ exfalso; rewrite Z.mul_0_r in Np; lia | lia ]. }
    destruct (Z.eq_dec (c + d) 0) as [|Nz]; [ lia |]. exfalso.
    assert (L : (a * b - w) * (a * b - w) <= (a * a) * (b * b)). { replace ((a * a) * (b * b)) with ((a * b) * (a * b)) by ring. apply Z.mul_le_mono_nonneg; lia. }
    assert (Q0 : 0 <= c * d) by (apply Z.mul_nonneg_nonneg; lia). assert (Qa : 0 < a * (c + d)) by (apply Z.mul_pos_pos; lia). assert (Qb : 0 < b * (c + d)) by (apply Z.mul_pos_pos; lia).
    assert (Q1 : (a + c) * (a + d) = a * a + a * (c + d) + c * d) by ring. assert (Q2 : (b + c) * (b + d) = b * b + b * (c + d) + c * d) by ring.
    assert (Sa : 0 <= a * a) by apply Z.square_nonneg. assert (Sb : 0 <= b * b) by apply Z.square_nonneg.
    assert (M : (a * a) * (b * b) < ((a + c) * (a + d)) * ((b + c) * (b + d))). { apply Z.mul_lt_mono_nonneg; lia. }
    rewrite Ns in L. apply (Z.lt_irrefl ((a * a) * (b * b))). eapply Z.lt_le_trans; [ exact M |]. eapply Z.le_trans; [| exact L ]. apply Z.eq_le_incl. ring.
  - intros [Zc Zd]. rewrite Zc, Zd in *. rewrite Z.mul_0_l in W. assert (wrap 0 = 0) by lia. rewrite Z.mul_0_l, H in En. subst num den2. assert (0 <= nTP m * nTN m) by nia. split; [| ring ].
    destruct (Z.eq_dec (nTP m * nTN m) 0) as [Z0|Z0]; [| lia ]. exfalso. assert (nTP m = 0 \/ nTN m = 0) as [Q|Q] by nia; rewrite Q in P; lia.
Qed.

Lemma equal_iff a b : is_equal a b = true <-> nTP a = nTP b /\ nTN a = nTN b /\ nFP a = nFP b /\ nFN a = nFN b /\ nSE a = nSE b /\ nDC a = nDC b.
Proof. unfold is_equal. rewrite !andb_true_iff, !Z.eqb_eq. tauto. Qed.
