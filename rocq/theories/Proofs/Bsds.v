From Coq Require Import ZArith QArith List Bool Lia Lqa Permutation Sorted Psatz.
From Verif Require Import Lib.Grid Model.Interp Model.Vectors Model.Metrics Model.Bsds Spec.Interp Spec.Bsds Proofs.Vectors Proofs.Interp Proofs.Metrics.
Import ListNotations.
Open Scope Z_scope.

(* ---------- the sweep ---------- *)
Section Sweep.
Context {C : Type} (img : list Z) (eval : list bool -> C).

Definition stands (s t : Z) : Prop := s <= t /\ forall v, In v img -> s <= v -> t <= v \/ v = s.

Lemma advance_spec : forall u t, u <> [] -> StronglySorted Z.lt u ->
  exists d, u = d ++ advance u t /\ advance u t <> [] /\ (forall x, In x d -> x <= t) /\
    (length (advance u t) = 1%nat \/ t < hd 0 (advance u t)).
Proof.
  induction u as [|x r IH]; intros t N S; [congruence|]. cbn [advance]. destruct r as [|y r'].
  - exists []. split; auto. split; [discriminate|]. split; [intros z []|left; reflexivity].
  - destruct (x <=? t) eqn:E.
    + apply Z.leb_le in E. inversion S; subst. destruct (IH t) as (d & D1 & D2 & D3 & D4); [discriminate|auto|].
      exists (x :: d). split; [cbn [app]; f_equal; exact D1|]. split; auto. split; auto. intros z [ <- |Z0]; auto.
    + apply Z.leb_gt in E. exists []. split; auto. split; [discriminate|]. split; [intros z []|right; exact E].
Qed.

Lemma copied_spec : forall ts b, (copied ts b <= length ts)%nat /\ forall t, In t (firstn (copied ts b) ts) -> t <= b.
Proof.
  induction ts as [|t ts IH]; intros b; cbn [copied]; [split; [auto|intros t []]|].
  destruct (t <=? b) eqn:E; [|split; [cbn; lia|intros x []]].
  apply Z.leb_le in E. destruct (IH b) as [A B]. split; [cbn; lia|]. intros x [ <- |X]; auto.
Qed.

Lemma sorted_app_r {A} (R : A -> A -> Prop) a b : StronglySorted R (a ++ b) -> StronglySorted R b.
Proof. induction a; cbn; auto. intros S; inversion S; auto. Qed.
Lemma sorted_skip {A} (R : A -> A -> Prop) n l : StronglySorted R l -> StronglySorted R (skipn n l).
Proof. intros S. rewrite <- (firstn_skipn n l) in S. exact (sorted_app_r _ _ _ S). Qed.

Lemma hd_least u x : StronglySorted Z.lt u -> In x u -> hd 0 u <= x.
Proof. intros S I. destruct u as [|a u]; [destruct I|]. inversion S as [|? ? _ F]; subst. rewrite Forall_forall in F. destruct I as [ <- |I]; cbn; [lia|]. specialize (F x I). lia. Qed.

Lemma sweep_spec all : forall fuel ts u, (length ts <= fuel)%nat -> StronglySorted Z.lt ts -> incl ts all ->
  u <> [] -> StronglySorted Z.lt u -> (forall v, In v img -> In v u \/ forall t, In t ts -> v < t) ->
  Forall2 (fun t c => exists s, In s all /\ stands s t /\ c = eval (edges img s)) ts (sweep img eval fuel ts u).
Proof.
  induction fuel as [|fuel IH]; intros ts u L S I N Su K.
  - destruct ts; [constructor|cbn in L; lia].
  - destruct ts as [|t r]; cbn [sweep]; [constructor|].
    inversion S as [|? ? Sr Ft]; subst. rewrite Forall_forall in Ft.
    destruct (advance_spec u t N Su) as (d & D1 & D2 & D3 & D4).
    set (u2 := advance u t) in *. set (k := copied r (hd 0 u2)).
    assert (Su2 : StronglySorted Z.lt u2) by (rewrite D1 in Su; exact (sorted_app_r _ _ _ Su)).
    destruct (copied_spec r (hd 0 u2)) as [Ck Cb]. fold k in Ck, Cb.
    assert (St : In t all) by (apply I; left; auto).
    assert (St2 : forall t', In t' (firstn k r) -> stands t t').
    { intros t' T'. assert (t < t') by (apply Ft; rewrite <- (firstn_skipn k r), in_app_iff; auto).
      specialize (Cb t' T'). split; [lia|]. intros v V Hv.
      destruct (K v V) as [J|J].
      - rewrite D1, in_app_iff in J. destruct J as [J|J]; [apply D3 in J; right; lia|].
        left. pose proof (hd_least _ _ Su2 J). lia.
      - specialize (J t (or_introl eq_refl)). lia. }
    constructor.
    + exists t. split; auto. split; [|reflexivity]. split; [lia|auto].
    + rewrite <- (firstn_skipn k r) at 1. apply Forall2_app.
      * assert (X : length (firstn k r) = k) by (rewrite firstn_length; lia).
        revert X St2. generalize (firstn k r) as q. generalize k as m. clear - St.
        intros m q. revert m. induction q as [|x q IQ]; intros m Lq H; destruct m; try discriminate Lq; cbn [repeat]; constructor.
        -- exists t. split; auto. split; auto. apply H; left; auto.
        -- apply IQ; [injection Lq; auto|]. intros t' T'. apply H; right; auto.
      * apply IH; auto.
        -- rewrite skipn_length. cbn in L. lia.
        -- apply sorted_skip; auto.
        -- intros x X. apply I. right. rewrite <- (firstn_skipn k r), in_app_iff. auto.
        -- intros v V. destruct (K v V) as [J|J].
           ++ rewrite D1, in_app_iff in J. destruct J as [J|J]; [|left; auto]. right. intros t' T'.
              assert (t < t') by (apply Ft; rewrite <- (firstn_skipn k r), in_app_iff; auto). apply D3 in J. lia.
           ++ right. intros t' T'. apply J. right. rewrite <- (firstn_skipn k r), in_app_iff. auto.
Qed.

Lemma rising_sorted l : rising l -> StronglySorted Z.lt l.
Proof.
  induction l as [|a l IH]; intros R; constructor.
  - apply IH. intros i j x y L X Y. apply (R (S i) (S j)); auto. lia.
  - apply Forall_forall. intros x X. apply In_nth_error in X as (i & X). apply (R 0%nat (S i)); auto. lia.
Qed.

Lemma accumulate_spec ts : img <> [] -> rising ts ->
  Forall2 (fun t c => exists s, In s ts /\ stands s t /\ c = eval (edges img s)) ts (accumulate img eval ts).
Proof.
  intros N R. destruct (unique_spec img) as [U1 U2]. apply sweep_spec; auto.
  - apply rising_sorted; auto.
  - apply incl_refl.
  - destruct img as [|v vs]; [congruence|]. intros E. specialize (U2 v). rewrite E in U2. apply U2. left; auto.
  - intros v V. left. apply U2. exact V.
Qed.

Lemma accumulate_exact ts : img <> [] -> rising ts -> (forall t, In t ts -> ~ In t img) ->
  accumulate img eval ts = map (fun t => eval (edges img t)) ts.
Proof.
  intros N R A. pose proof (accumulate_spec ts N R) as F. revert F. generalize (accumulate img eval ts) as cs.
  assert (G : forall ts' cs, incl ts' ts -> Forall2 (fun t c => exists s, In s ts /\ stands s t /\ c = eval (edges img s)) ts' cs -> cs = map (fun t => eval (edges img t)) ts').
  { intros ts' cs I F. induction F as [|t c ts' cs (s & Is & (L & H) & -> ) F IH]; cbn [map]; auto. f_equal; [|apply IH; intros x X; apply I; right; auto].
    f_equal. unfold edges. apply map_ext_in. intros v V. destruct (Z.leb_spec s v) as [X|X]; destruct (Z.leb_spec t v) as [Y|Y]; auto.
    - destruct (H v V X) as [Z0| -> ]; [lia|]. exfalso. exact (A s Is V).
    - lia. }
  intros cs F. apply G; auto. apply incl_refl.
Qed.
End Sweep.

(* ---------- matching ---------- *)
Lemma reach_covers h w d u : 0 <= h -> 0 <= w -> near h w d = true -> u * u <= d -> - reach h w <= u <= reach h w.
Proof.
  intros Hh Hw N U. unfold near in N. apply Z.leb_le in N. unfold reach.
  set (D := 9 * (w * w + h * h)) in *. assert (0 <= D) by (unfold D; pose proof (Z.square_nonneg w); pose proof (Z.square_nonneg h); lia).
  assert (E : u * u <= (D + 159999) / 160000) by (apply Z.div_le_lower_bound; lia).
  set (m := (D + 159999) / 160000) in *. assert (0 <= u * u) by apply Z.square_nonneg. assert (0 <= m) by lia. clearbody m D.
  pose proof (Z.sqrt_up_nonneg m). 
  assert (m <= Z.sqrt_up m * Z.sqrt_up m).
  { destruct (Z.eq_dec m 0) as [ -> |X]; [reflexivity|]. destruct (Z.sqrt_up_spec m) as [_ Y]; lia. }
  nia.
Qed.

Lemma find_match_some h w segm p q : find_match h w segm p = Some q ->
  In q (grid 0 h 0 w) /\ segm (fst q) (snd q) = true /\ close h w p q = true.
Proof.
  unfold find_match. destruct (find _ _) as [[u v]|] eqn:E; [|discriminate]. intros X; injection X as <-.
  apply find_some in E as [_ E]. unfold hit in E. rewrite !andb_true_iff, !Z.leb_le, !Z.ltb_lt in E.
  destruct E as (((((A & B) & C) & D) & N) & Sg). split; [rewrite in_grid; cbn [fst snd]; lia|]. split; [exact Sg|].
  unfold close. cbn [fst snd]. unfold near in N. rewrite <- N. f_equal. ring.
Qed.

Lemma find_match_none h w segm p : 0 <= h -> 0 <= w -> find_match h w segm p = None ->
  forall q, In q (grid 0 h 0 w) -> segm (fst q) (snd q) = true -> close h w p q = false.
Proof.
  intros Hh Hw E [a b] G Sg. unfold find_match in E. destruct (find _ _) as [[u v]|] eqn:F; [discriminate|].
  destruct (close h w p (a, b)) eqn:C; auto. exfalso. destruct p as [i j]. cbn [fst snd] in *.
  assert (N : near h w ((a - i) * (a - i) + (b - j) * (b - j)) = true).
  { unfold near. unfold close in C. cbn [fst snd] in C. rewrite <- C. f_equal. ring. }
  assert (I : In (a - i, b - j) (offsets (reach h w))).
  { unfold offsets. rewrite in_grid. cbn [fst snd].
    pose proof (Z.square_nonneg (a - i)) as X1. pose proof (Z.square_nonneg (b - j)) as X2.
    pose proof (reach_covers h w _ (a - i) Hh Hw N ltac:(lia)). pose proof (reach_covers h w _ (b - j) Hh Hw N ltac:(lia)). lia. }
  pose proof (find_none _ _ F _ I) as X. unfold hit in X. rewrite in_grid in G. cbn [fst snd] in G.
  replace (i + (a - i)) with a in X by ring. replace (j + (b - j)) with b in X by ring.
  rewrite N, Sg in X. replace (0 <=? a) with true in X by (symmetry; apply Z.leb_le; lia).
  replace (a <? h) with true in X by (symmetry; apply Z.ltb_lt; lia). replace (0 <=? b) with true in X by (symmetry; apply Z.leb_le; lia).
  replace (b <? w) with true in X by (symmetry; apply Z.ltb_lt; lia). discriminate X.
Qed.

Lemma find_match_detected h w segm p : 0 <= h -> 0 <= w -> is_some (find_match h w segm p) = detected h w segm p.
Proof.
  intros Hh Hw. destruct (find_match h w segm p) as [q|] eqn:E; cbn [is_some]; symmetry.
  - apply find_match_some in E as (G & Sg & C). apply existsb_exists. exists q. rewrite Sg, C. auto.
  - apply not_true_iff_false. intros X. apply existsb_exists in X as (q & G & X). apply andb_true_iff in X as [Sg C].
    rewrite (find_match_none h w segm p Hh Hw E q G Sg) in C. discriminate.
Qed.

Lemma count_filter {A} (p q : A -> bool) l : count p (filter q l) = count (fun x => q x && p x) l.
Proof. unfold count. rewrite filter_filter. reflexivity. Qed.

Lemma count_flat {A B} (p : B -> bool) (f : A -> list B) l : count p (flat_map f l) = total (fun a => count p (f a)) l.
Proof. unfold total. induction l as [|a l IH]; [reflexivity|]. cbn [flat_map map fold_right]. rewrite count_app, IH. reflexivity. Qed.

Lemma total_ext {A} (f g : A -> Z) l : (forall a, In a l -> f a = g a) -> total f l = total g l.
Proof. intros H. unfold total. f_equal. apply map_ext_in. auto. Qed.

Lemma total_le {A} (f g : A -> Z) l : (forall a, In a l -> f a <= g a) -> total f l <= total g l.
Proof.
  unfold total. induction l as [|a l IH]; intros H; cbn [map fold_right]; [lia|].
  pose proof (H a (or_introl eq_refl)). specialize (IH ltac:(intros b B; apply H; right; auto)). lia.
Qed.

Lemma evaluate_tp h w gts segm : 0 <= h -> 0 <= w ->
  indiv_tp (evaluate h w gts segm) = total (fun gt : mask => how_many h w (fun p => gt (fst p) (snd p) && detected h w segm p)) gts.
Proof.
  intros Hh Hw. cbn [evaluate indiv_tp]. rewrite count_flat. apply total_ext. intros gt _. unfold matches.
  rewrite count_map, count_filter. apply count_ext_in. intros p _. rewrite find_match_detected by auto. reflexivity.
Qed.

Lemma evaluate_tpfn h w gts segm : indiv_tpfn (evaluate h w gts segm) = total (fun gt : mask => how_many h w (fun p => gt (fst p) (snd p))) gts.
Proof.
  cbn [evaluate indiv_tpfn]. rewrite <- count_true. rewrite count_flat. apply total_ext. intros gt _. unfold matches.
  rewrite count_map, count_filter. apply count_ext_in. intros p _. apply andb_true_r.
Qed.

Lemma evaluate_bounds h w gts segm : 0 <= h -> 0 <= w ->
  0 <= indiv_tp (evaluate h w gts segm) <= indiv_tpfn (evaluate h w gts segm) /\
  0 <= total_tp (evaluate h w gts segm) <= total_tpfp (evaluate h w gts segm).
Proof.
  intros Hh Hw. split.
  - split; [apply count_nonneg|apply count_le].
  - cbn [evaluate total_tp total_tpfp]. split; [apply count_nonneg|]. apply count_mono. intros [a b] G M.
    unfold marked in M. apply existsb_exists in M as (o & O & M). destruct o as [[c d]|]; [|discriminate].
    cbn [fst snd] in *. apply andb_true_iff in M as [M1 M2]. apply Z.eqb_eq in M1 as ->. apply Z.eqb_eq in M2 as ->.
    apply in_flat_map in O as (gt & _ & O). unfold matches in O. apply in_map_iff in O as (p & E & _).
    apply find_match_some in E as (_ & S & _). exact S.
Qed.

Lemma evaluate_total_tp h w gts segm : 0 <= h -> 0 <= w ->
  total_tp (evaluate h w gts segm) <= how_many h w (fun q => segm (fst q) (snd q) && existsb (fun gt : mask => detected h w gt q) gts).
Proof.
  intros Hh Hw. cbn [evaluate total_tp]. apply count_mono. intros [a b] G M.
  unfold marked in M. apply existsb_exists in M as (o & O & M). destruct o as [[c d]|]; [|discriminate].
  cbn [fst snd] in *. apply andb_true_iff in M as [M1 M2]. apply Z.eqb_eq in M1 as ->. apply Z.eqb_eq in M2 as ->.
  apply in_flat_map in O as (gt & Ig & O). unfold matches in O. apply in_map_iff in O as (p & E & P).
  apply filter_In in P as [P1 P2]. apply find_match_some in E as (_ & Sg & Cl). cbn [fst snd] in Sg. rewrite Sg. cbn [andb].
  apply existsb_exists. exists gt. split; auto. apply existsb_exists. exists p. rewrite P2. split; auto. cbn [andb].
  unfold close in *. rewrite <- Cl. cbn [fst snd]. f_equal. ring.
Qed.

Lemma detected_mono h w (s1 s2 : mask) p : (forall i j, s1 i j = true -> s2 i j = true) -> detected h w s1 p = true -> detected h w s2 p = true.
Proof.
  intros H D. apply existsb_exists in D as (q & G & D). apply andb_true_iff in D as [D1 D2].
  apply existsb_exists. exists q. rewrite (H _ _ D1), D2. auto.
Qed.

Lemma detected_self h w (s : mask) p : In p (grid 0 h 0 w) -> s (fst p) (snd p) = true -> detected h w s p = true.
Proof.
  intros G S. apply existsb_exists. exists p. rewrite S. split; auto. unfold close. rewrite !Z.sub_diag.
  apply Z.leb_le. nia.
Qed.

Lemma evaluate_mono h w gts s1 s2 : 0 <= h -> 0 <= w -> (forall i j, s1 i j = true -> s2 i j = true) ->
  indiv_tp (evaluate h w gts s1) <= indiv_tp (evaluate h w gts s2).
Proof.
  intros Hh Hw H. rewrite !evaluate_tp by auto. apply total_le. intros gt _. apply count_mono. intros p _ X.
  apply andb_true_iff in X as [X1 X2]. rewrite X1. cbn [andb]. exact (detected_mono h w s1 s2 p H X2).
Qed.

Lemma evaluate_full h w gts segm : 0 <= h -> 0 <= w -> (forall gt : mask, In gt gts -> forall i j, gt i j = true -> segm i j = true) ->
  indiv_tp (evaluate h w gts segm) = indiv_tpfn (evaluate h w gts segm).
Proof.
  intros Hh Hw H. rewrite evaluate_tp, evaluate_tpfn by auto. apply total_ext. intros gt G. apply count_ext_in. intros p P.
  destruct (gt (fst p) (snd p)) eqn:E; cbn [andb]; auto. apply detected_self; auto. apply (H gt G). exact E.
Qed.

(* ---------- best score ---------- *)
Open Scope Q_scope.
Definition consistent (s : score) : Prop := fmeasure s = CalcFMeasure (recall s) (precision s).

Lemma better_spec b s : fmeasure b <= fmeasure (better b s) /\ fmeasure s <= fmeasure (better b s) /\ (better b s = b \/ better b s = s).
Proof.
  unfold better. destruct (Qltb (fmeasure b) (fmeasure s)) eqn:E.
  - apply Qltb_lt in E. split; [lra|]. split; [lra|auto].
  - apply Qltb_ge in E. split; [lra|]. split; [lra|auto].
Qed.

Lemma fold_better prev s : forall ks b, let r := fold_left (fun b k => better b (blend prev s k)) ks b in
  fmeasure b <= fmeasure r /\ (forall k, In k ks -> fmeasure (blend prev s k) <= fmeasure r) /\
  (r = b \/ exists k, In k ks /\ r = blend prev s k).
Proof.
  induction ks as [|k ks IH]; intros b; cbn [fold_left].
  - split; [lra|]. split; [intros k []|left; reflexivity].
  - destruct (IH (better b (blend prev s k))) as (A & B & C). destruct (better_spec b (blend prev s k)) as (D & E & F).
    split; [lra|]. split.
    + intros k' [ <- |K]; [lra|auto].
    + destruct C as [C|(k' & K & C)]; [|right; exists k'; split; [right; auto|auto]].
      rewrite C. destruct F as [F|F]; rewrite F; [left; auto|right; exists k; split; [left; auto|auto]].
Qed.

Lemma in_weights k : In k weights -> 0 <= k <= 1.
Proof.
  unfold weights. intros H. apply in_map_iff in H as (i & <- & I). apply in_zrange in I.
  split.
  - apply Qle_shift_div_l; [reflexivity|]. rewrite Qmult_0_l. change 0 with (inject_Z 0). rewrite <- Zle_Qle. lia.
  - apply Qle_shift_div_r; [reflexivity|]. rewrite Qmult_1_l. change 100 with (inject_Z 100). rewrite <- Zle_Qle. lia.
Qed.

Lemma weights_one : In (inject_Z 100 / 100) weights.
Proof. unfold weights. apply in_map_iff. exists 100%Z. split; auto. apply in_zrange. lia. Qed.
Lemma weights_zero : In (inject_Z 0 / 100) weights.
Proof. unfold weights. apply in_map_iff. exists 0%Z. split; auto. apply in_zrange. lia. Qed.

Lemma CalcF_ext r r' p p' : r == r' -> p == p' -> CalcFMeasure r p == CalcFMeasure r' p'.
Proof.
  intros A B. unfold CalcFMeasure. destruct (Qlt_le_dec 0 (r + p)) as [X|X]; destruct (Qlt_le_dec 0 (r' + p')) as [Y|Y].
  - rewrite A, B. reflexivity.
  - exfalso. rewrite A, B in X. lra.
  - exfalso. rewrite A, B in X. lra.
  - reflexivity.
Qed.

Lemma blend_one a b : consistent b -> fmeasure (blend a b (inject_Z 100 / 100)) == fmeasure b.
Proof.
  intros C. rewrite C. unfold blend. cbn [fmeasure]. assert (E : inject_Z 100 / 100 == 1) by reflexivity. apply CalcF_ext; rewrite E; ring.
Qed.

Definition within01 (x : Q) : Prop := 0 <= x <= 1.
Definition sane (s : score) : Prop := within01 (threshold s) /\ within01 (recall s) /\ within01 (precision s) /\ consistent s.

Lemma mix01 a b k : within01 a -> within01 b -> 0 <= k <= 1 -> within01 ((1 - k) * a + k * b).
Proof.
  unfold within01. intros [A1 A2] [B1 B2] [K1 K2].
  assert (X1 : 0 <= (1 - k) * a) by (apply Qmult_le_0_compat; lra).
  assert (X2 : 0 <= k * b) by (apply Qmult_le_0_compat; lra).
  assert (X3 : 0 <= (1 - k) * (1 - a)) by (apply Qmult_le_0_compat; lra).
  assert (X4 : 0 <= k * (1 - b)) by (apply Qmult_le_0_compat; lra).
  split; lra.
Qed.

Lemma blend_sane a b k : sane a -> sane b -> 0 <= k <= 1 -> sane (blend a b k).
Proof.
  intros (A1 & A2 & A3 & _) (B1 & B2 & B3 & _) K. unfold blend, sane. cbn [threshold recall precision].
  split; [apply mix01; auto|]. split; [apply mix01; auto|]. split; [apply mix01; auto|]. reflexivity.
Qed.

Lemma find_max_spec : forall l best prev, sane best -> sane prev -> Forall sane l ->
  sane (find_max best prev l) /\ fmeasure best <= fmeasure (find_max best prev l) /\
  (forall s, In s l -> fmeasure s <= fmeasure (find_max best prev l)) /\
  (forall i a b k, nth_error (prev :: l) i = Some a -> nth_error (prev :: l) (S i) = Some b -> In k weights -> fmeasure (blend a b k) <= fmeasure (find_max best prev l)).
Proof.
  induction l as [|s l IH]; intros best prev Sb Sp Sl; cbn [find_max].
  - split; [auto|]. split; [lra|]. split; [intros s []|]. intros i a b k A B. destruct i; discriminate B.
  - inversion Sl as [|? ? Ss Sl']; subst.
    destruct (fold_better prev s weights best) as (F1 & F2 & F3).
    set (b2 := fold_left (fun b k => better b (blend prev s k)) weights best) in *.
    assert (Sb2 : sane b2). { destruct F3 as [ -> |(k & K & -> )]; auto. apply blend_sane; auto. apply in_weights; auto. }
    destruct (IH b2 s Sb2 Ss Sl') as (I1 & I2 & I3 & I4). split; [auto|]. split; [lra|]. split.
    + intros x [ <- |X]; [|auto]. specialize (F2 _ weights_one). rewrite blend_one in F2 by apply Ss. lra.
    + intros i a b k A B K. destruct i as [|i].
      * cbn in A, B. injection A as <-. injection B as <-. specialize (F2 k K). lra.
      * cbn [nth_error] in A, B. exact (I4 i a b k A B K).
Qed.

Lemma FindMax_spec l : l <> [] -> Forall sane l -> exists m, FindMaxFMeasure l = Some m /\ sane m /\
  (forall s, In s l -> fmeasure s <= fmeasure m) /\
  (forall i a b k, nth_error l i = Some a -> nth_error l (S i) = Some b -> In k weights -> fmeasure (blend a b k) <= fmeasure m).
Proof.
  destruct l as [|s l]; [congruence|]. intros _ F. inversion F as [|? ? Ss Sl]; subst.
  destruct (find_max_spec l s s Ss Ss Sl) as (A & B & C & D). exists (find_max s s l). split; auto. split; auto. split; [|exact D].
  intros x [ <- |X]; auto.
Qed.

Lemma ratio01 a b : (0 <= a <= b)%Z -> within01 (ratio a b).
Proof.
  intros H. unfold ratio, within01. destruct (0 <? b)%Z eqn:E; [|lra]. apply Z.ltb_lt in E.
  assert (0 < inject_Z b) by (change 0 with (inject_Z 0); rewrite <- Zlt_Qlt; lia).
  split.
  - apply Qle_shift_div_l; auto. rewrite Qmult_0_l. change 0 with (inject_Z 0). rewrite <- Zle_Qle. lia.
  - apply Qle_shift_div_r; auto. rewrite Qmult_1_l. rewrite <- Zle_Qle. lia.
Qed.

Lemma score_sane t c : (0 <= t <= 255)%Z -> (0 <= indiv_tp c <= indiv_tpfn c)%Z -> (0 <= total_tp c <= total_tpfp c)%Z -> sane (score_of t c).
Proof.
  intros T A B. unfold sane, score_of. cbn [threshold recall precision]. split; [|split; [|split]].
  - pose proof (ratio01 t 255 T) as R. exact R.
  - apply ratio01; auto. - apply ratio01; auto. - reflexivity.
Qed.

(* ---------- cumulated counters ---------- *)
Lemma wrap_add a b c : wrap (wrap (a + b) + c) = wrap (a + b + c).
Proof. unfold wrap. rewrite Zplus_mod_idemp_l. reflexivity. Qed.

Definition sums (l : list counters) : counters :=
  Cnt (wrap (total indiv_tp l)) (wrap (total indiv_tpfn l)) (wrap (total total_tp l)) (wrap (total total_tpfp l)).

Lemma cumulate_sums l : cumulate l = sums l.
Proof.
  unfold cumulate. assert (G : forall l a b c d, fold_left add l (Cnt (wrap a) (wrap b) (wrap c) (wrap d)) =
    Cnt (wrap (a + total indiv_tp l)) (wrap (b + total indiv_tpfn l)) (wrap (c + total total_tp l)) (wrap (d + total total_tpfp l))).
  { induction l0 as [|x r IH]; intros a b c d; cbn [fold_left].
    - unfold total; cbn. rewrite !Z.add_0_r. reflexivity.
    - unfold add at 2. cbn [indiv_tp indiv_tpfn total_tp total_tpfp].
      assert (W : forall u v, wrap (wrap u + v) = wrap (u + v)) by (intros u v; unfold wrap; apply Zplus_mod_idemp_l).
      rewrite !W. rewrite IH. unfold total. cbn [map fold_right]. rewrite !Z.add_assoc. reflexivity. }
  specialize (G l 0%Z 0%Z 0%Z 0%Z). unfold sums. rewrite !Z.add_0_l in G. exact G.
Qed.

Lemma total_perm {A} (f : A -> Z) a b : Permutation a b -> total f a = total f b.
Proof. unfold total. induction 1; cbn [map fold_right]; lia. Qed.

Lemma cumulate_perm a b : Permutation a b -> cumulate a = cumulate b.
Proof. intros P. rewrite !cumulate_sums. unfold sums. rewrite !(total_perm _ _ _ P). reflexivity. Qed.

(* ---------- area under the curve ---------- *)
Definition ascending (l : list score) : Prop := StronglySorted (fun a b => recall a < recall b) l.

Lemma by_recall_spec s : forall l, ascending l -> ascending (by_recall s l) /\ (forall x, In x (by_recall s l) -> x = s \/ In x l) /\
  (exists x, In x (by_recall s l) /\ recall x == recall s) /\ incl l (by_recall s l).
Proof.
  induction l as [|x l IH]; intros A; cbn [by_recall].
  - split; [repeat constructor|]. split; [intros y [ <- |[]]; auto|]. split; [exists s; split; [left; auto|reflexivity]|intros y []].
  - inversion A as [|? ? A' F]; subst. destruct (Qltb (recall s) (recall x)) eqn:E; [|destruct (Qltb (recall x) (recall s)) eqn:E2].
    + apply Qltb_lt in E. split; [|split; [|split]].
      * constructor; auto. apply Forall_cons; auto. rewrite Forall_forall in *. intros y Y. specialize (F y Y). lra.
      * intros y [ <- |Y]; auto.
      * exists s. split; [left; auto|reflexivity].
      * intros y Y; right; auto.
    + apply Qltb_lt in E2. destruct (IH A') as (I1 & I2 & (z & Z1 & Z2) & I4). split; [|split; [|split]].
      * constructor; auto. rewrite Forall_forall in *. intros y Y. apply I2 in Y as [ -> |Y]; auto.
      * intros y [ <- |Y]; [right; left; auto|]. apply I2 in Y as [Y|Y]; [auto|right; right; auto].
      * exists z. split; [right; auto|auto].
      * intros y [ <- |Y]; [left; auto|right; auto].
    + apply Qltb_ge in E. apply Qltb_ge in E2. split; [auto|]. split; [auto|]. split; [exists x; split; [left; auto|lra]|apply incl_refl].
Qed.

Lemma unique_recalls_spec l : ascending (unique_recalls l) /\ incl (unique_recalls l) l /\ (forall s, In s l -> exists x, In x (unique_recalls l) /\ recall x == recall s).
Proof.
  unfold unique_recalls.
  assert (G : forall l acc, ascending acc -> let r := fold_left (fun a s => by_recall s a) l acc in
    ascending r /\ (forall x, In x r -> In x acc \/ In x l) /\ incl acc r /\ (forall s, In s l -> exists x, In x r /\ recall x == recall s)).
  { induction l0 as [|s l0 IH]; intros acc A; cbn [fold_left].
    - split; [auto|]. split; [auto|]. split; [apply incl_refl|intros s []].
    - destruct (by_recall_spec s acc A) as (B1 & B2 & (z & Z1 & Z2) & B4). destruct (IH _ B1) as (I1 & I2 & I3 & I4).
      split; [auto|]. split; [|split].
      + intros x X. apply I2 in X as [X|X]; [|right; right; auto]. apply B2 in X as [ -> |X]; [right; left; auto|auto].
      + intros x X. apply I3, B4, X.
      + intros x [ <- |X]; [exists z; split; auto|auto]. }
  destruct (G l [] ltac:(constructor)) as (A & B & _ & D). split; auto. split; [|exact D]. intros x X. apply B in X as [[]|X]; auto.
Qed.

Lemma area_sum_bad vals acc : area_sum vals (S (length vals)) acc = UB \/ area_sum vals (length vals) acc = UB.
Proof.
  cbn [area_sum]. destruct (area_sum vals (length vals) acc) as [a| |] eqn:E; auto.
  - rewrite (proj2 (nth_error_None vals (length vals))) by lia. auto.
  - exfalso. revert E. generalize (length vals) as n. induction n as [|n IH]; cbn [area_sum]; [discriminate|].
    destruct (area_sum vals n acc); try discriminate; auto. destruct (nth_error vals n); discriminate.
Qed.

Lemma area_sum_UB vals acc : area_sum vals (S (length vals)) acc = UB.
Proof. destruct (area_sum_bad vals acc) as [H|H]; auto. cbn [area_sum]. rewrite H. reflexivity. Qed.

Lemma interp_all_outcome xs sl : (length sl = length xs)%nat -> forall reqs,
  (exists ys, interp_all xs sl reqs = Ok ys /\ length ys = length reqs /\ forall q, In q reqs -> hd 0 xs <= q <= last xs 0) \/
  (interp_all xs sl reqs = Throw /\ exists q, In q reqs /\ (q < hd 0 xs \/ last xs 0 < q)) \/ xs = [].
Proof.
  intros L. destruct xs as [|x xs]; [auto|]. induction reqs as [|q reqs IH]; cbn [interp_all].
  - left. exists []. split; auto. split; auto. intros q [].
  - unfold interp_one. destruct (Qle_bool x q && Qle_bool q (last (x :: xs) 0)) eqn:E.
    + apply andb_true_iff in E as [E1 E2]. apply Qle_bool_iff in E1. apply Qle_bool_iff in E2.
      destruct (find_nn_index L1q q (x :: xs)) as [i|] eqn:F; [|apply find_nn_none in F; discriminate].
      destruct (find_nn_first L1q q (x :: xs) i F) as (v & V & _).
      assert (I : (i < length sl)%nat) by (rewrite L; apply nth_error_Some; rewrite V; discriminate).
      destruct (nth_error sl i) as [[s o]|] eqn:N; [|apply nth_error_None in N; lia].
      destruct IH as [(ys & Y1 & Y2 & Y3)|[(Y & q' & Q & Q')|Y]]; [left|right; left|discriminate].
      * rewrite Y1. eexists. split; [reflexivity|]. split; [cbn; auto|]. intros q' [ <- |Q]; [split; auto|auto].
      * rewrite Y. split; auto. exists q'. split; [right; auto|auto].
    + right. left. split; auto. exists q. split; [left; auto|]. apply andb_false_iff in E. cbn [hd].
      destruct E as [E|E]; [left|right]; apply Qnot_le_lt; intros X; apply Qle_bool_iff in X; congruence.
Qed.

Lemma ascending_last : forall l d, ascending l -> l <> [] -> (forall x, In x l -> recall x <= recall (last l d)) /\ In (last l d) l.
Proof.
  induction l as [|x l IH]; intros d A N; [congruence|]. inversion A as [|? ? A' F]; subst.
  destruct l as [|y l]; [cbn; split; [intros z [ <- |[]]; lra|auto]|].
  destruct (IH d A' ltac:(discriminate)) as [I1 I2]. change (last (x :: y :: l) d) with (last (y :: l) d). split; [|right; auto].
  intros z [ <- |Z0]; [|auto]. rewrite Forall_forall in F. specialize (F _ I2). lra.
Qed.

Lemma last_map_recall : forall l d, l <> [] -> last (map recall l) 0 = recall (last l d).
Proof. induction l as [|x l IH]; intros d N; [congruence|]. destruct l as [|y l]; [reflexivity|]. exact (IH d ltac:(discriminate)). Qed.

Lemma area_flat l : (forall a b, In a l -> In b l -> recall a == recall b) -> area l = Ok 0.
Proof.
  intros H. unfold area. destruct (unique_recalls_spec l) as (A & I & _).
  destruct (unique_recalls l) as [|x [|y u]]; auto. exfalso.
  inversion A as [|? ? _ F]; subst. inversion F as [|? ? X _]; subst.
  specialize (H x y (I x (or_introl eq_refl)) (I y (or_intror (or_introl eq_refl)))). lra.
Qed.

Lemma area_faults l : (exists a b, In a l /\ In b l /\ ~ recall a == recall b) ->
  (area l = UB /\ exists a b, In a l /\ In b l /\ recall a <= 0 /\ 1 <= recall b) \/
  (area l = Throw /\ ((forall a, In a l -> 0 < recall a) \/ (forall b, In b l -> recall b < 1))).
Proof.
  intros (a & b & Ia & Ib & D). unfold area. destruct (unique_recalls_spec l) as (A & I & R).
  set (u := unique_recalls l) in *.
  assert (L : (1 < length u)%nat).
  { destruct (R a Ia) as (x & X1 & X2). destruct (R b Ib) as (y & Y1 & Y2). destruct u as [|p [|q r]]; [destruct X1| |cbn; lia].
    exfalso. destruct X1 as [ <- |[]]. destruct Y1 as [ <- |[]]. apply D. rewrite <- X2. exact Y2. }
  rewrite (proj2 (Nat.ltb_lt _ _) L). unfold interp1. rewrite !map_length, Nat.min_id.
  destruct (length u) as [|n] eqn:Lu; [lia|].
  destruct (interp_all_outcome (map recall u) (slopes (S n) (map recall u) (map precision u) 0)) with (reqs := weights) as [(ys & Y1 & Y2 & Y3)|[(Y & q & Q & Q')|Y]].
  - rewrite slopes_length; rewrite ?map_length; lia.
  - left. rewrite Y1. destruct ys as [|y ys]; [discriminate Y2|]. split; [apply area_sum_UB|].
    destruct u as [|x u'] eqn:Eu; [discriminate Lu|]. rewrite <- Eu in *.
    assert (Nu : u <> []) by (rewrite Eu; discriminate).
    destruct (ascending_last u x A Nu) as [_ La].
    exists x, (last u x). split; [apply I; rewrite Eu; left; auto|]. split; [apply I; exact La|].
    pose proof (Y3 _ weights_zero) as [W0 _]. pose proof (Y3 _ weights_one) as [_ W1].
    rewrite (last_map_recall u x Nu) in W1. rewrite Eu in W0. cbn [map hd] in W0.
    assert (Z0 : inject_Z 0 / 100 == 0) by reflexivity. assert (Z1 : inject_Z 100 / 100 == 1) by reflexivity.
    rewrite Z0 in W0. rewrite Z1 in W1. split; [exact W0|exact W1].
  - right. rewrite Y. split; auto. pose proof (in_weights q Q) as [W0 W1].
    destruct u as [|x u'] eqn:Eu; [discriminate Lu|]. rewrite <- Eu in *. assert (Nu : u <> []) by (rewrite Eu; discriminate).
    destruct Q' as [Q'|Q'].
    + left. intros s S. destruct (R s S) as (z & Z1 & Z2). rewrite <- Z2. rewrite Eu in Q', Z1. cbn [map hd] in Q'.
      rewrite Eu in A. inversion A as [|? ? _ F]; subst. rewrite Forall_forall in F. destruct Z1 as [ <- |Z1]; [lra|]. specialize (F z Z1). lra.
    + right. intros s S. destruct (R s S) as (z & Z1 & Z2). rewrite <- Z2. rewrite (last_map_recall u x Nu) in Q'.
      destruct (ascending_last u x A Nu) as [La _]. specialize (La z Z1). lra.
  - destruct u; [discriminate Lu|discriminate Y].
Qed.

Lemma Forall2_weaken {A B} (P Q : A -> B -> Prop) a b : (forall x y, P x y -> Q x y) -> Forall2 P a b -> Forall2 Q a b.
Proof. intros H F. induction F; constructor; auto. Qed.
