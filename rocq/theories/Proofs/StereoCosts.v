From Coq Require Import ZArith QArith List Bool Lia Lqa.
From Verif Require Import Lib.Grid Model.FusionTerms Spec.FusionTerms Model.StereoMoves Spec.StereoMoves Model.StereoCosts Spec.StereoCosts.
From Verif Require Proofs.StereoMoves.
Import ListNotations.
Local Open Scope Z_scope.

Lemma cast_whole q : (0 <= q)%Q -> whole q (cost_cast q) /\ 0 <= cost_cast q.
Proof.
  destruct q as [n d]. unfold whole, cost_cast, Qle, Qlt, inject_Z. cbn [Qnum Qden]. intros H. assert (0 <= n) by lia. rewrite Z.quot_div_nonneg by lia.
  pose proof (Z.div_mod n (Zpos d) ltac:(lia)). pose proof (Z.mod_pos_bound n (Zpos d) ltac:(lia)). pose proof (Z.div_pos n (Zpos d)). nia.
Qed.
Lemma whole_unique q a b : whole q a -> whole q b -> a = b.
Proof.
  unfold whole. intros [A1 A2] [B1 B2]. assert (H1 : (inject_Z a < inject_Z (b + 1))%Q) by (eapply Qle_lt_trans; eassumption). assert (H2 : (inject_Z b < inject_Z (a + 1))%Q) by (eapply Qle_lt_trans; eassumption).
  rewrite <- Zlt_Qlt in H1. rewrite <- Zlt_Qlt in H2. lia.
Qed.
Lemma cast_le q r : (0 <= q)%Q -> (q <= r)%Q -> cost_cast q <= cost_cast r.
Proof.
  intros H L. destruct (cast_whole q H) as [[A _] _]. assert (H' : (0 <= r)%Q) by (eapply Qle_trans; eassumption). destruct (cast_whole r H') as [[_ B] _].
  assert (C : (inject_Z (cost_cast q) < inject_Z (cost_cast r + 1))%Q) by (eapply Qle_lt_trans; [ exact A | eapply Qle_lt_trans; eassumption ]). rewrite <- Zlt_Qlt in C. lia.
Qed.
Lemma cast_int v : cost_cast (inject_Z v) = v. Proof. unfold cost_cast. cbn. apply Z.quot_1_r. Qed.

Lemma positive_spec q : positive q == (if Qlt_le_dec 0 q then q else 0).
Proof.
  unfold positive. destruct (Qle_bool q 0) eqn:E; destruct (Qlt_le_dec 0 q).
  - apply Qle_bool_iff in E. exfalso. apply (Qlt_not_le _ _ q0 E).
  - reflexivity.
  - reflexivity.
  - apply Qle_bool_iff in q0. congruence.
Qed.
Lemma positive_nonneg q : (0 <= positive q)%Q.
Proof. rewrite positive_spec. destruct (Qlt_le_dec 0 q); lra. Qed.
Lemma positive_le1 q : (q <= 1)%Q -> (positive q <= 1)%Q.
Proof. rewrite positive_spec. destruct (Qlt_le_dec 0 q); lra. Qed.

Section Fixed.
  Variables (s : setup) (f : features) (i : Z).
  Hypothesis (G : geometry s).
  Hypothesis (Hi : In i (pixels s)).

  Lemma Hc : 0 < cols s. Proof using G. apply G. Qed.
  Lemma Hx : 0 <= col_of s i < cols s. Proof using G. apply Z.mod_pos_bound, Hc. Qed.
  Lemma i_split : i = row_of s i * cols s + col_of s i.
  Proof using G. unfold row_of, col_of. pose proof (Z.div_mod i (cols s)). pose proof Hc. lia. Qed.
  Lemma i_range : 0 <= i < rows s * cols s /\ inside s i = true.
  Proof using Hi. unfold pixels in Hi. apply filter_In in Hi. destruct Hi as [A B]. apply in_zrange in A. split; [ lia | exact B ]. Qed.
  Lemma Hr : 0 <= row_of s i < rows s.
  Proof using G Hi. pose proof i_range as [A _]. pose proof Hc. unfold row_of. split; [ apply Z.div_pos; lia | apply Z.div_lt_upper_bound; lia ]. Qed.

  Definition mb (l : Z) : bool := let c := target s (col_of s i) (mind s + l) in (0 <=? c) && (c <? cols s) && other f (row_of s i * cols s + c).
  Definition md (l : Z) : Z := if negb (shape f i =? 0) && (medians f (shape f i) <? nreal s) then Z.abs (medians f (shape f i) - l) * median_scale else 0.
  Definition dc (l : Z) : Z := md l + cost_cast (img_aff f i l * positive (img_sal f i) * image_scale)%Q + cost_cast (shp_aff f i l * positive (shp_sal f i) * shape_scale)%Q.
  Definition sum_before (l : Z) : Z := total (map dc (filter mb (zrange 0 l))).
  Definition num_before (l : Z) : Z := count mb (zrange 0 l).
  Definition uc (l : Z) : Z := if mb l then dc l else Z.quot (sum_before l) (num_before l + 1).

  Lemma offset_eq l : 0 <= l < nreal s -> offset_col s (col_of s i) l = Some (target s (col_of s i) (mind s + l)).
  Proof using G.
    intros H. pose proof Hx. destruct G as (_ & _ & M & N). unfold offset_col, offset_value, real_label, ensure, obind, target, maxd, nlabels, disp_step.
    assert (E1 : ((0 <=? col_of s i) && (col_of s i <? cols s)) = true) by (apply andb_true_iff; split; [ apply Z.leb_le | apply Z.ltb_lt ]; lia).
    assert (E2 : (l <? nreal s) = true) by (apply Z.ltb_lt; lia).
    assert (E3 : ((0 <=? l) && (l <? nreal s + 2)) = true) by (apply andb_true_iff; split; [ apply Z.leb_le | apply Z.ltb_lt ]; lia).
    rewrite E1, E2, E3. rewrite Z.mul_1_r.
    assert (E4 : ((mind s <=? mind s + l) && (mind s + l <=? mind s + (nreal s - 1) * 1)) = true) by (apply andb_true_iff; split; apply Z.leb_le; lia).
    rewrite E4. destruct (second s); f_equal; lia.
  Qed.

  Lemma zrange_snoc k : 0 <= k -> zrange 0 (k + 1) = zrange 0 k ++ [k].
  Proof. intros H. unfold zrange. replace (Z.to_nat (k + 1)) with (Z.to_nat k + 1)%nat by lia. rewrite zseq_app. f_equal. cbn. f_equal. lia. Qed.
  Lemma total_app a b : total (a ++ b) = total a + total b.
  Proof. induction a as [| x a IH]; cbn; [ reflexivity | unfold total in *; cbn; rewrite IH; lia ]. Qed.
  Lemma sum_snoc k : 0 <= k -> sum_before (k + 1) = sum_before k + (if mb k then dc k else 0).
  Proof. intros H. unfold sum_before. rewrite zrange_snoc by exact H. rewrite filter_app, map_app, total_app. f_equal. cbn [filter]. destruct (mb k); cbn; lia. Qed.
  Lemma num_snoc k : 0 <= k -> num_before (k + 1) = num_before k + (if mb k then 1 else 0).
  Proof. intros H. unfold num_before. rewrite zrange_snoc by exact H. rewrite count_app. f_equal. rewrite count_cons. unfold count. cbn. lia. Qed.

  Lemma ofold_app {A B} (g : A -> B -> option A) l1 l2 a : ofold g (l1 ++ l2) a = obind (ofold g l1 a) (ofold g l2).
  Proof. revert a. induction l1 as [| x l1 IH]; intros a; cbn; [ reflexivity |]. destruct (g a x); cbn; [ apply IH | reflexivity ]. Qed.

  Lemma step_eq u l : 0 <= l < nreal s -> label_step s f i (u, sum_before l, num_before l) l = Some (upd u l (uc l), sum_before (l + 1), num_before (l + 1)).
  Proof using G.
    intros H. unfold label_step. rewrite (offset_eq l H). cbn [obind]. rewrite sum_snoc, num_snoc by lia. unfold uc. fold (md l). unfold mb at 1 2 3. cbv zeta.
    destruct ((0 <=? target s (col_of s i) (mind s + l)) && (target s (col_of s i) (mind s + l) <? cols s) && other f (row_of s i * cols s + target s (col_of s i) (mind s + l))) eqn:E.
    - reflexivity.
    - rewrite !Z.add_0_r. reflexivity.
  Qed.

  Lemma fold_eq k : 0 <= k <= nreal s -> exists u, ofold (label_step s f i) (zrange 0 k) (fun _ => 0, 0, 0) = Some (u, sum_before k, num_before k) /\ (forall l, 0 <= l < k -> u l = uc l).
  Proof using G.
    intros H. destruct H as [H0 H1]. revert H1. pattern k. apply natlike_ind; [ | | exact H0 ].
    - intros _. exists (fun _ => 0). split; [ reflexivity | lia ].
    - intros x Hx0 IH H1. destruct IH as (u & E & U); [ lia |]. unfold Z.succ in *. exists (upd u x (uc x)). split.
      + rewrite zrange_snoc by lia. rewrite ofold_app, E. cbn [obind ofold]. rewrite step_eq by lia. reflexivity.
      + intros l Hl. unfold upd. destruct (Z.eqb_spec l x) as [-> | N]; [ reflexivity | apply U; lia ].
  Qed.

  Lemma unary_eq : exists u, unary_costs s f i = Some u /\ (forall l, 0 <= l < nreal s -> u l = uc l) /\ u (nreal s) = 10000 /\ u (nreal s + 1) = 10000.
  Proof using G.
    destruct (fold_eq (nreal s)) as (u & E & U); [ destruct G as (_ & _ & _ & ?); lia |]. unfold unary_costs. rewrite E. cbn [obind fst]. eexists. split; [ reflexivity |]. unfold upd, dontcare, special_cost. split; [| split ].
    - intros l H. destruct (Z.eqb_spec l (nreal s + 1)); [ lia |]. destruct (Z.eqb_spec l (nreal s)); [ lia |]. apply U, H.
    - destruct (Z.eqb_spec (nreal s) (nreal s + 1)); [ lia |]. now rewrite Z.eqb_refl.
    - now rewrite Z.eqb_refl.
  Qed.

  Lemma mb_matches l : 0 <= l < nreal s -> (mb l = true <-> matches s f i l).
  Proof using G.
    intros H. unfold mb, matches. cbv zeta. split.
    - intros E. apply andb_true_iff in E. destruct E as [E O]. apply andb_true_iff in E. destruct E as [E1 E2]. apply Z.leb_le in E1. apply Z.ltb_lt in E2.
      split; [ exact H |]. exists (row_of s i), (col_of s i), (target s (col_of s i) (mind s + l)). repeat split; try apply Hx; try lia; auto. apply i_split.
    - intros (_ & row & x & c & Ei & Xx & Ec & Cc & O). pose proof (i_split) as S2. pose proof Hx.
      destruct (StereoMoves.flat_inj (cols s) row (row_of s i) x (col_of s i)) as [-> ->]; [ lia | lia | congruence |]. subst c.
      rewrite O. apply andb_true_iff; split; [ apply andb_true_iff; split; [ apply Z.leb_le | apply Z.ltb_lt ]; lia | reflexivity ].
  Qed.

  Lemma terms_nonneg l : affinities s f i -> 0 <= l < nreal s -> (0 <= img_aff f i l * positive (img_sal f i) * image_scale)%Q /\ (0 <= shp_aff f i l * positive (shp_sal f i) * shape_scale)%Q.
  Proof.
    intros A H. destruct (A l H) as [A1 A2]. split; (apply Qmult_le_0_compat; [ apply Qmult_le_0_compat; [ assumption | apply positive_nonneg ] | unfold image_scale, shape_scale; discriminate ]).
  Qed.
  Lemma md_nonneg l : 0 <= md l. Proof. unfold md, median_scale. destruct (negb _ && _); lia. Qed.
  Lemma dc_nonneg l : affinities s f i -> 0 <= l < nreal s -> 0 <= dc l.
  Proof. intros A H. destruct (terms_nonneg l A H) as [T1 T2]. unfold dc. pose proof (md_nonneg l). pose proof (proj2 (cast_whole _ T1)). pose proof (proj2 (cast_whole _ T2)). lia. Qed.

  Lemma dc_spec l : affinities s f i -> 0 <= l < nreal s -> match_cost s f i l (dc l).
  Proof.
    intros A H. destruct (terms_nonneg l A H) as [T1 T2]. destruct (cast_whole _ T1) as [W1 _]. destruct (cast_whole _ T2) as [W2 _].
    exists (md l), (cost_cast (img_aff f i l * positive (img_sal f i) * image_scale)), (cost_cast (shp_aff f i l * positive (shp_sal f i) * shape_scale)). split; [ reflexivity |]. unfold md, median_scale. split; [| split; [| split ] ].
    - intros [N L]. destruct (Z.eqb_spec (shape f i) 0); [ contradiction |]. apply Z.ltb_lt in L. rewrite L. cbn [negb andb]. lia.
    - intros [E | L]; [ rewrite E; reflexivity |]. destruct (Z.ltb_spec (medians f (shape f i)) (nreal s)); [ lia |]. now rewrite andb_false_r.
    - unfold whole in *. rewrite <- positive_spec. change (1000)%Q with image_scale. exact W1.
    - unfold whole in *. rewrite <- positive_spec. change (1000)%Q with shape_scale. exact W2.
  Qed.
  Lemma match_cost_unique l v w : match_cost s f i l v -> match_cost s f i l w -> v = w.
  Proof.
    intros (m & a & b & -> & M1 & M2 & A & B) (m' & a' & b' & -> & M1' & M2' & A' & B'). rewrite (whole_unique _ _ _ A A'), (whole_unique _ _ _ B B').
    destruct (Z.eq_dec (shape f i) 0) as [E | E]; [ rewrite M2, M2' by auto; reflexivity |]. destruct (Z_lt_le_dec (medians f (shape f i)) (nreal s)) as [L | L]; [ rewrite M1, M1' by auto; reflexivity | rewrite M2, M2' by auto; reflexivity ].
  Qed.

  Lemma total_nonneg l : (forall x, In x l -> 0 <= x) -> 0 <= total l.
  Proof. induction l as [| x l IH]; unfold total in *; cbn; intros H; [ lia |]. specialize (IH (fun y Hy => H y (or_intror Hy))). specialize (H x (or_introl eq_refl)). lia. Qed.
  Lemma sum_nonneg l : affinities s f i -> l <= nreal s -> 0 <= sum_before l.
  Proof. intros A H. apply total_nonneg. intros x Hx0. apply in_map_iff in Hx0. destruct Hx0 as (y & <- & Hy). apply filter_In in Hy. destruct Hy as [Hy _]. apply in_zrange in Hy. apply dc_nonneg; [ exact A | lia ]. Qed.
  Lemma uc_nonneg l : affinities s f i -> 0 <= l < nreal s -> 0 <= uc l.
  Proof. intros A H. unfold uc. destruct (mb l); [ now apply dc_nonneg |]. apply Z.quot_pos; [ apply sum_nonneg; [ exact A | lia ] | pose proof (count_nonneg mb (zrange 0 l)); unfold num_before; lia ]. Qed.

  (* bounds *)
  Lemma bounded_affinities : bounded s f i -> affinities s f i.
  Proof. intros (_ & _ & _ & B) l H. specialize (B l H). tauto. Qed.
  Lemma dc_bound l : bounded s f i -> 0 <= l < nreal s -> dc l <= 9040.
  Proof using G.
    intros B H. pose proof (bounded_affinities B) as A. destruct (terms_nonneg l A H) as [T1 T2]. destruct B as (S1 & S2 & M & B). destruct (B l H) as [[B1 B2] [B3 B4]].
    assert (C1 : cost_cast (img_aff f i l * positive (img_sal f i) * image_scale)%Q <= 2000).
    { rewrite <- (cast_int 2000). apply cast_le; [ exact T1 |]. unfold image_scale, inject_Z. pose proof (positive_nonneg (img_sal f i)). pose proof (positive_le1 _ S1). nra. }
    assert (C2 : cost_cast (shp_aff f i l * positive (shp_sal f i) * shape_scale)%Q <= 2000).
    { rewrite <- (cast_int 2000). apply cast_le; [ exact T2 |]. unfold shape_scale, inject_Z. pose proof (positive_nonneg (shp_sal f i)). pose proof (positive_le1 _ S2). nra. }
    assert (C3 : md l <= 5040).
    { unfold md, median_scale. destruct G as (_ & _ & _ & N). destruct (negb _ && _) eqn:E; [| lia ]. apply andb_true_iff in E. destruct E as [_ E]. apply Z.ltb_lt in E. lia. }
    unfold dc. lia.
  Qed.
  Lemma total_bound l b : (forall x, In x l -> x <= b) -> total l <= b * Z.of_nat (length l).
  Proof. induction l as [| x l IH]; unfold total in *; cbn [fold_right length]; intros H; [ lia |]. specialize (IH (fun y Hy => H y (or_intror Hy))). specialize (H x (or_introl eq_refl)). lia. Qed.
  Lemma sum_bound l b : l <= nreal s -> (forall k, 0 <= k < l -> mb k = true -> dc k <= b) -> sum_before l <= b * num_before l.
  Proof.
    intros H Hb. unfold sum_before, num_before, count. rewrite <- (map_length dc (filter mb (zrange 0 l))). apply total_bound. intros x Hx0. apply in_map_iff in Hx0. destruct Hx0 as (y & <- & Hy). apply filter_In in Hy. destruct Hy as [Hy M]. apply in_zrange in Hy. apply Hb; [ lia | exact M ].
  Qed.
  Lemma uc_bound l : bounded s f i -> 0 <= l < nreal s -> uc l <= 9040.
  Proof using G.
    intros B H. unfold uc. destruct (mb l); [ now apply dc_bound |]. pose proof (count_nonneg mb (zrange 0 l)) as N. fold (num_before l) in N.
    assert (S0 : sum_before l <= 9040 * num_before l) by (apply sum_bound; [ lia | intros k Hk _; apply dc_bound; [ exact B | lia ] ]).
    pose proof (sum_nonneg l (bounded_affinities B) ltac:(lia)). rewrite Z.quot_div_nonneg by lia. apply Z.div_le_upper_bound; nia.
  Qed.
End Fixed.

From Coq Require Import Permutation.
From Verif Require Proofs.StereoRun Proofs.StereoFrames.

Lemma total_perm a b : Permutation a b -> total a = total b.
Proof. unfold total. induction 1; cbn; lia. Qed.
Lemma earlier_perm s f i l ms : geometry s -> In i (pixels s) -> 0 <= l <= nreal s -> earlier s f i l ms -> Permutation (filter (mb s f i) (zrange 0 l)) ms.
Proof.
  intros G Hi H [N E]. apply NoDup_Permutation; [ apply NoDup_filter, nodup_zseq | exact N |]. intros k. rewrite filter_In, E, in_zrange. split.
  - intros [K M]. split; [ lia |]. apply (mb_matches s f i G k); [ lia | exact M ].
  - intros [K M]. pose proof M as [K2 _]. split; [ lia |]. apply (mb_matches s f i G k); [ lia | exact M ].
Qed.

Lemma model_unary s f i u l : unary_costs s f i = Some u -> unary (stereo_model s f) i l = u l.
Proof. intros E. cbn. now rewrite E. Qed.

Lemma unary_ok s f i : geometry s -> In i (pixels s) -> affinities s f i ->
  exists u, unary_costs s f i = Some u /\ (forall l, unary (stereo_model s f) i l = u l) /\
    (forall l, matches s f i l -> match_cost s f i l (u l) /\ 0 <= u l) /\
    (forall l ms, 0 <= l < nreal s -> ~ matches s f i l -> earlier s f i l ms -> u l = total (map u ms) / (Z.of_nat (length ms) + 1) /\ 0 <= u l) /\
    u (nreal s) = 10000 /\ u (nreal s + 1) = 10000.
Proof.
  intros G Hi A. destruct (unary_eq s f i G) as (u & E & U & D1 & D2). exists u. split; [ exact E |]. split; [ intros l; now apply model_unary |]. split; [| split; [| split; assumption ] ].
  - intros l M. pose proof M as [H _]. rewrite (U l H). pose proof (uc_nonneg s f i l A H). apply (mb_matches s f i G l H) in M. unfold uc in *. rewrite M in *. split; [ now apply dc_spec | assumption ].
  - intros l ms H NM EA. rewrite (U l H). pose proof (uc_nonneg s f i l A H) as P. split; [| exact P ]. unfold uc in *. destruct (mb s f i l) eqn:M; [ exfalso; apply NM; now apply (mb_matches s f i G l H) |].
    pose proof (earlier_perm s f i l ms G Hi ltac:(lia) EA) as PM. pose proof (sum_nonneg s f i l A ltac:(lia)).
    pose proof (count_nonneg (mb s f i) (zrange 0 l)). unfold num_before. rewrite Z.quot_div_nonneg by lia.
    f_equal; [| unfold count; rewrite (Permutation_length PM); reflexivity ].
    unfold sum_before. rewrite (total_perm _ _ (Permutation_map (dc s f i) PM)). f_equal. apply map_ext_in. intros k Hk. apply EA in Hk. destruct Hk as [K1 K2]. pose proof K2 as [K3 _]. rewrite (U k K3). unfold uc. apply (mb_matches s f i G k K3) in K2. now rewrite K2.
Qed.

Lemma reset_best s f st i : sound (stereo_model s f) -> In i (pixels s) -> reset (stereo_model s f) None = Some st -> best (unary (stereo_model s f) i) (nlabels s) (lab st i).
Proof.
  intros S0 Hi E. exact (StereoFrames.reset_started (stereo_model s f) None st S0 I E i Hi).
Qed.

(* the graph *)
Lemma index_named s i : 0 < cols s -> In i (pixels s) -> 0 <= graph_index s i /\ nth_error (pixels s) (Z.to_nat (graph_index s i)) = Some i.
Proof.
  intros C Hi. destruct (i_range s i Hi) as [R I]. split; [ apply count_nonneg |]. unfold pixels, graph_index, count. rewrite Nat2Z.id.
  unfold zrange at 1. replace (Z.to_nat (rows s * cols s)) with (Z.to_nat i + S (Z.to_nat (rows s * cols s - i - 1)))%nat by lia.
  rewrite zseq_app, filter_app. rewrite nth_error_app2 by (unfold zrange; lia). unfold zrange. rewrite Nat.sub_diag. rewrite zseq_S. cbn [filter]. replace (0 + Z.of_nat (Z.to_nat i)) with i by lia. rewrite I. reflexivity.
Qed.

Lemma below_in s i : geometry s -> In i (pixels s) -> row_of s i + 1 < rows s -> inside s (i + cols s) = true -> In (i + cols s) (pixels s).
Proof.
  intros G Hi R E. destruct (i_range s i Hi) as [A _]. pose proof (i_split s i G). pose proof (Hx s i G). pose proof (Hc s G). unfold pixels. apply filter_In. split; [| exact E ]. apply in_zrange. nia.
Qed.
Lemma right_in s i : geometry s -> In i (pixels s) -> col_of s i + 1 < cols s -> inside s (i + 1) = true -> In (i + 1) (pixels s).
Proof.
  intros G Hi R E. destruct (i_range s i Hi) as [A _]. pose proof (i_split s i G). pose proof (Hx s i G). pose proof (Hc s G). pose proof (Hr s i G Hi). unfold pixels. apply filter_In. split; [| exact E ]. apply in_zrange. nia.
Qed.

Lemma guard_eq s i : negb ((0 <=? i) && (i <? rows s * cols s) && inside s i) = negb (existsb (Z.eqb i) (pixels s)).
Proof.
  f_equal. apply eq_true_iff_eq. rewrite existsb_exists. split.
  - intros E. apply andb_true_iff in E. destruct E as [E I]. apply andb_true_iff in E. destruct E as [E1 E2]. apply Z.leb_le in E1. apply Z.ltb_lt in E2. exists i. split; [| apply Z.eqb_refl ]. apply filter_In. split; [ apply in_zrange; lia | exact I ].
  - intros (x & Hx0 & E). apply Z.eqb_eq in E. subst x. destruct (i_range s i Hx0) as [R I]. rewrite I. apply andb_true_iff. split; [ apply andb_true_iff; split; [ apply Z.leb_le | apply Z.ltb_lt ]; lia | reflexivity ].
Qed.
Lemma pairs_open s f i : In i (pixels s) -> pairs s f i =
  (if (row_of s i + 1 <? rows s) && inside s (i + cols s) then [pair s f i false (i + cols s)] else []) ++
  (if (col_of s i + 1 <? cols s) && inside s (i + 1) then [pair s f i true (i + 1)] else []).
Proof. intros Hi. unfold pairs. rewrite guard_eq. assert (E : existsb (Z.eqb i) (pixels s) = true) by (apply existsb_exists; exists i; split; [ exact Hi | apply Z.eqb_refl ]). rewrite E. reflexivity. Qed.
Lemma pairs_closed s f i c : In c (pairs s f i) -> In i (pixels s).
Proof. unfold pairs. rewrite guard_eq. destruct (existsb (Z.eqb i) (pixels s)) eqn:E; [| intros [] ]. intros _. apply existsb_exists in E. destruct E as (x & H & E). apply Z.eqb_eq in E. now subst. Qed.

Lemma pairs_in s f i c : geometry s -> In i (pixels s) -> In c (pairs s f i) -> exists o j, c = pair s f i o j /\ In j (pixels s) /\ neighbours s i j /\ o = negb (j =? i + cols s) /\ (j = i + cols s \/ j = i + 1 /\ j <> i + cols s).
Proof.
  intros G Hi H. pose proof (i_split s i G) as SP. pose proof (Hx s i G) as X. pose proof (Hr s i G Hi) as R. rewrite (pairs_open s f i Hi) in H. apply in_app_iff in H. destruct H as [H | H].
  - destruct ((row_of s i + 1 <? rows s) && inside s (i + cols s)) eqn:E; [| destruct H ]. destruct H as [<- | []]. apply andb_true_iff in E. destruct E as [E1 E2]. apply Z.ltb_lt in E1. exists false, (i + cols s). split; [ reflexivity |]. split; [ now apply below_in |]. split; [| rewrite Z.eqb_refl; auto ].
    exists (row_of s i), (col_of s i). repeat split; lia.
  - destruct ((col_of s i + 1 <? cols s) && inside s (i + 1)) eqn:E; [| destruct H ]. destruct H as [<- | []]. apply andb_true_iff in E. destruct E as [E1 E2]. apply Z.ltb_lt in E1. exists true, (i + 1). split; [ reflexivity |]. split; [ now apply right_in |].
    assert (1 <> cols s) by lia. split; [| destruct (Z.eqb_spec (i + 1) (i + cols s)); [ lia | auto ] ].
    exists (row_of s i), (col_of s i). repeat split; lia.
Qed.

Lemma pairs_iff s f i j : geometry s -> In i (pixels s) -> (In [i; j] (map places (pairs s f i)) <-> In j (pixels s) /\ neighbours s i j).
Proof.
  intros G Hi. split.
  - intros H. apply in_map_iff in H. destruct H as (c & E & H). destruct (pairs_in s f i c G Hi H) as (o & j' & -> & P & N & _). cbn in E. injection E as <-. auto.
  - intros [P (row & x & R & X & Ei & N)]. pose proof (i_split s i G) as SP. pose proof (Hx s i G) as X'. destruct (i_range s j P) as [_ Ij].
    destruct (StereoMoves.flat_inj (cols s) row (row_of s i) x (col_of s i)) as [E1 E2]; [ lia | lia | congruence |]. subst row x.
    rewrite (pairs_open s f i Hi). rewrite map_app. apply in_app_iff. destruct N as [[N1 N2] | [N1 N2]].
    + left. assert (J : i + cols s = j) by lia. apply Z.ltb_lt in N1. rewrite N1, J, Ij. cbn. auto.
    + right. assert (J : i + 1 = j) by lia. apply Z.ltb_lt in N1. rewrite N1, J, Ij. cbn. auto.
Qed.

Lemma model_sound s f : geometry s -> sound (stereo_model s f).
Proof.
  intros G. pose proof G as (A & B & C & D). unfold sound. cbn [rows cols mind nreal stereo_model]. repeat split; try lia. intros i c H. cbn in H. pose proof (pairs_closed s f i c H) as Hi.
  destruct (pairs_in s f i c G Hi H) as (o & j & -> & Hj & _). unfold named, pair. cbn [nodes places]. change (pixels (stereo_model s f)) with (pixels s).
  repeat (apply Forall2_cons; [ now apply index_named |]). constructor.
Qed.

Lemma nodup_flat_map {A B} (g : A -> list B) l : NoDup l -> (forall a, In a l -> NoDup (g a)) -> (forall a b x, In a l -> In b l -> In x (g a) -> In x (g b) -> a = b) -> NoDup (flat_map g l).
Proof.
  induction l as [| a l IH]; intros N G D; cbn; [ constructor |]. inversion N as [| ? ? N1 N2]; subst.
  assert (NoDup (flat_map g l)) by (apply IH; [ exact N2 | intros; apply G; now right | intros; eapply D; eauto; now right ]).
  assert (X : forall x, In x (g a) -> ~ In x (flat_map g l)).
  { intros x H1 H2. apply in_flat_map in H2. destruct H2 as (b & Hb & H2). assert (a = b) by (eapply D; eauto; [ now left | now right ]). subst. contradiction. }
  assert (Na : NoDup (g a)) by (apply G; now left). clear - H X Na. induction (g a) as [| x m IHm]; cbn; [ exact H |]. inversion Na; subst. constructor.
  - rewrite in_app_iff. intros [K | K]; [ contradiction | exact (X x (or_introl eq_refl) K) ].
  - apply IHm; [ intros y Hy; apply X; now right | assumption ].
Qed.
Lemma all_pairs_iff s f p : geometry s -> (In p (all_pairs s f) <-> exists i j, p = [i; j] /\ In i (pixels s) /\ In j (pixels s) /\ neighbours s i j).
Proof.
  intros G. unfold all_pairs. rewrite in_flat_map. cbn [cliques stereo_model]. split.
  - intros (i & Hi & H). pose proof H as H'. apply in_map_iff in H'. destruct H' as (c & E & Hc0). destruct (pairs_in s f i c G Hi Hc0) as (o & j & -> & Hj & N & _). cbn in E. exists i, j. auto.
  - intros (i & j & -> & Hi & Hj & N). exists i. split; [ exact Hi |]. now apply pairs_iff.
Qed.
Lemma all_pairs_once s f : geometry s -> NoDup (all_pairs s f).
Proof.
  intros G. apply nodup_flat_map.
  - apply NoDup_filter, nodup_zseq.
  - intros i Hi. cbn [cliques stereo_model]. rewrite (pairs_open s f i Hi). pose proof (Hx s i G). destruct ((row_of s i + 1 <? rows s) && inside s (i + cols s)); destruct ((col_of s i + 1 <? cols s) && inside s (i + 1)) eqn:E; cbn; repeat constructor; cbn; try tauto.
    intros [K | []]. injection K as K. apply andb_true_iff in E. destruct E as [E _]. apply Z.ltb_lt in E. lia.
  - intros a b x Ha Hb H1 H2. cbn [cliques stereo_model] in *. apply in_map_iff in H1. apply in_map_iff in H2. destruct H1 as (c & E1 & H1). destruct H2 as (c' & E2 & H2).
    destruct (pairs_in s f a c G Ha H1) as (o & j & -> & _). destruct (pairs_in s f b c' G Hb H2) as (o' & j' & -> & _). cbn in *. congruence.
Qed.

(* costs of pairs *)
Lemma pair_costs s f i c a b : geometry s -> weights f -> In c (cliques (stereo_model s f) i) -> exists w, (0 <= w)%Q /\
  (0 <= a < nreal s -> 0 <= b < nreal s -> whole (w * inject_Z (Z.min (Z.abs (a - b)) (Z.max 10 ((mind s + nreal s - 1) / 8)) ^ 2))%Q (cost c [a; b])) /\
  (0 <= a < nreal s -> whole (w * 10000)%Q (cost c [a; nreal s]) /\ whole (w * 10000)%Q (cost c [nreal s; a]) /\ cost c [a; nreal s + 1] = 0 /\ cost c [nreal s + 1; a] = 0) /\
  cost c [nreal s; nreal s] = 0 /\ cost c [nreal s + 1; nreal s + 1] = 0.
Proof.
  intros G W H. cbn in H. pose proof (pairs_closed s f i c H) as Hi. destruct (pairs_in s f i c G Hi H) as (o & j & -> & _). pose proof G as (_ & _ & M & N).
  exists (weight f i o). split; [ apply W |]. unfold pair. cbn [cost].
  assert (K : forall a b v, pair_base s a b = v -> 0 <= v -> whole (weight f i o * inject_Z v) (cost_cast (weight f i o * inject_Z (pair_base s a b)))).
  { intros x y v E V. rewrite E. apply cast_whole. apply Qmult_le_0_compat; [ apply W |]. change 0%Q with (inject_Z 0). now rewrite <- Zle_Qle. }
  assert (Z0 : forall a b, pair_base s a b = 0 -> cost_cast (weight f i o * inject_Z (pair_base s a b)) = 0).
  { intros x y E. rewrite E. unfold cost_cast. cbn. rewrite Z.mul_0_r. reflexivity. }
  split; [| split ].
  - intros A B. apply K; [| apply Z.pow_nonneg; lia ]. unfold pair_base. assert (E1 : (a <? nreal s) = true) by (apply Z.ltb_lt; lia). assert (E2 : (b <? nreal s) = true) by (apply Z.ltb_lt; lia). rewrite E1, E2. cbn [andb].
    unfold disparity, max_diff, maxd, disp_step. rewrite Z.quot_div_nonneg by lia. replace (mind s + (nreal s - 1) * 1) with (mind s + nreal s - 1) by lia. replace (mind s + a * 1 - (mind s + b * 1)) with (a - b) by lia. now rewrite Z.pow_2_r.
  - intros A. assert (E1 : (a <? nreal s) = true) by (apply Z.ltb_lt; lia). change 10000%Q with (inject_Z 10000).
    assert (L1 : (nreal s + 1 <? nreal s) = false) by (apply Z.ltb_ge; lia). assert (L2 : (nreal s + 1 =? nreal s) = false) by (apply Z.eqb_neq; lia). assert (L3 : (a =? nreal s) = false) by (apply Z.eqb_neq; lia).
    split; [| split; [| split ] ]; [ apply (K a (nreal s) 10000); [| lia ] | apply (K (nreal s) a 10000); [| lia ] | apply Z0 | apply Z0 ];
      unfold pair_base, dontcare; rewrite ?E1, ?Z.ltb_irrefl, ?Z.eqb_refl, ?L1, ?L2, ?L3; reflexivity.
  - split; apply Z0; unfold pair_base, dontcare.
    + rewrite Z.ltb_irrefl. cbn. rewrite andb_false_r. reflexivity.
    + destruct (Z.ltb_spec (nreal s + 1) (nreal s)); [ lia |]. cbn. rewrite andb_false_r. reflexivity.
Qed.

(* the labels that a frame starts from *)
Lemma start_first s f i st : geometry s -> In i (pixels s) -> affinities s f i -> ~ matches s f i 0 -> reset (stereo_model s f) None = Some st -> lab st i = 0.
Proof.
  intros G Hi A NM E. destruct (reset_best s f st i (model_sound s f G) Hi E) as (R & L & F). destruct (unary_ok s f i G Hi A) as (u & _ & U & UM & UN & D1 & D2). pose proof G as (_ & _ & _ & N).
  assert (u 0 = 0).
  { destruct (UN 0 [] ltac:(lia) NM) as [X _]; [| exact X ]. split; [ constructor |]. intros k. split; [ intros [] |]. intros [K [K2 _]]. lia. }
  destruct (Z.eq_dec (lab st i) 0) as [| NZ]; [ assumption |]. exfalso.
  assert (U0 : u (lab st i) < u 0) by (specialize (F 0 ltac:(lia)); rewrite !U in F; exact F).
  assert (0 <= u (lab st i)); [| lia ]. unfold nlabels in R. destruct (Z_lt_le_dec (lab st i) (nreal s)) as [Q | Q].
  - destruct (mb s f i (lab st i)) eqn:M; [ apply (UM (lab st i)); apply (mb_matches s f i G); [ lia | exact M ] |].
    apply (UN (lab st i) (filter (mb s f i) (zrange 0 (lab st i)))); [ lia | |].
    + intros K. apply (mb_matches s f i G) in K; [ congruence | lia ].
    + split; [ apply NoDup_filter, nodup_zseq |]. intros k. rewrite filter_In, in_zrange. split.
      * intros [K1 K2]. split; [ lia |]. apply (mb_matches s f i G k); [ lia | exact K2 ].
      * intros [K1 K2]. pose proof K2 as [K3 _]. split; [ lia |]. apply (mb_matches s f i G k); [ lia | exact K2 ].
  - assert (C : lab st i = nreal s \/ lab st i = nreal s + 1) by lia. destruct C as [-> | ->]; lia.
Qed.

Lemma start_unmatched s f i st l ms : geometry s -> In i (pixels s) -> affinities s f i -> 0 <= l < nreal s -> ~ matches s f i l -> earlier s f i l ms ->
  (forall k, matches s f i k -> total (map (unary (stereo_model s f) i) ms) < (Z.of_nat (length ms) + 1) * unary (stereo_model s f) i k) ->
  reset (stereo_model s f) None = Some st -> ~ matches s f i (lab st i).
Proof.
  intros G Hi A Hl NM EA D E MS. destruct (reset_best s f st i (model_sound s f G) Hi E) as (R & L & F). destruct (unary_ok s f i G Hi A) as (u & _ & U & UM & UN & D1 & D2).
  specialize (D _ MS). rewrite U in D. rewrite (map_ext _ _ U) in D. destruct (UN l ms Hl NM EA) as [V _].
  specialize (L l ltac:(unfold nlabels; lia)). rewrite !U in L. rewrite V in L.
  assert (total (map u ms) / (Z.of_nat (length ms) + 1) < u (lab st i)) by (apply Z.div_lt_upper_bound; lia). lia.
Qed.

Lemma start_real s f i st : geometry s -> In i (pixels s) -> bounded s f i -> reset (stereo_model s f) None = Some st -> 0 <= lab st i < nreal s.
Proof.
  intros G Hi B E. destruct (reset_best s f st i (model_sound s f G) Hi E) as (R & L & F). destruct (unary_eq s f i G) as (u & EU & U & D1 & D2). pose proof G as (_ & _ & _ & N).
  specialize (L 0 ltac:(unfold nlabels; lia)). rewrite !(model_unary s f i u) in L by exact EU. rewrite (U 0) in L by lia. pose proof (uc_bound s f i G 0 B ltac:(lia)). unfold nlabels in R.
  destruct (Z_lt_le_dec (lab st i) (nreal s)) as [Q | Q]; [ lia |]. assert (C : lab st i = nreal s \/ lab st i = nreal s + 1) by lia. destruct C as [C | C]; rewrite C in L; lia.
Qed.

Lemma start_best s f i st : geometry s -> In i (pixels s) -> bounded s f i -> (forall l, 0 <= l < nreal s -> matches s f i l) -> reset (stereo_model s f) None = Some st ->
  0 <= lab st i < nreal s /\ forall l v w, match_cost s f i (lab st i) v -> match_cost s f i l w -> (0 <= l < nreal s -> v <= w) /\ (0 <= l < lab st i -> v < w).
Proof.
  intros G Hi B M E. pose proof (start_real s f i st G Hi B E) as R0. split; [ exact R0 |]. destruct (reset_best s f st i (model_sound s f G) Hi E) as (R & L & F).
  destruct (unary_ok s f i G Hi (bounded_affinities s f i B)) as (u & _ & U & UM & _). intros l v w V W.
  assert (EV : v = u (lab st i)) by (apply (match_cost_unique s f i (lab st i)); [ exact V | apply UM, M, R0 ]). split; intros H.
  - assert (EW : w = u l) by (apply (match_cost_unique s f i l); [ exact W | apply UM, M, H ]). specialize (L l ltac:(unfold nlabels; lia)). rewrite !U in L. lia.
  - assert (EW : w = u l) by (apply (match_cost_unique s f i l); [ exact W | apply UM, M; lia ]). specialize (F l H). rewrite !U in F. lia.
Qed.

Lemma match_cost_exists s f i l : affinities s f i -> 0 <= l < nreal s -> exists v, match_cost s f i l v.
Proof. intros A H. exists (dc s f i l). now apply dc_spec. Qed.

(* regions that the constructor accepts *)
Lemma accepts_iff s f : accepts s f = true <-> forall r, r = inside s \/ r = other f -> 1 < count r (zrange 0 (rows s * cols s)) < rows s * cols s.
Proof.
  unfold accepts. rewrite forallb_forall. cbn [In]. split.
  - intros H r Hr. assert (K := H r ltac:(destruct Hr; auto)). cbv zeta in K. apply andb_true_iff in K. destruct K as [K1 K2]. apply Z.ltb_lt in K1. apply Z.ltb_lt in K2. lia.
  - intros H r Hr. cbv zeta. specialize (H r ltac:(destruct Hr as [? | [? | []]]; auto)). apply andb_true_iff; split; apply Z.ltb_lt; lia.
Qed.
Lemma whole_rejected s f : 0 < rows s -> 0 < cols s -> (forall i, 0 <= i < rows s * cols s -> inside s i = true) -> accepts s f = false.
Proof.
  intros R C H. destruct (accepts s f) eqn:E; [| reflexivity ]. exfalso. assert (K := proj1 (accepts_iff s f) E (inside s) (or_introl eq_refl)).
  rewrite (count_ext_in (inside s) (fun _ => true)) in K by (intros x Hx0; apply in_zrange in Hx0; apply H; lia). rewrite count_true in K. unfold zrange in K. rewrite zseq_length in K. nia.
Qed.

(* witnesses *)
Lemma reset_runs s f : geometry s -> exists st, reset (stereo_model s f) None = Some st.
Proof. intros G. destruct (StereoRun.reset_ok (stereo_model s f) (model_sound s f G) None I) as (st & E & _). eauto. Qed.

Definition edge : setup := Setup 1 3 0 2 false (fun i => negb (i =? 0)) (fun _ _ => 0) (fun _ => []) real_add (approx_rem real_add).
Definition edge_f : features := Features (fun _ _ => 0%Q) (fun _ _ => 0%Q) (fun _ => 1%Q) (fun _ => 1%Q) (fun _ => 0) (fun _ => 0) (fun i => negb (i =? 1)) (fun _ _ => 1%Q).
Lemma edge_geometry : geometry edge. Proof. unfold geometry; cbn; lia. Qed.
Lemma edge_matches l : matches edge edge_f 1 l <-> l = 1.
Proof.
  split.
  - intros M. pose proof M as [H _]. apply (mb_matches edge edge_f 1 edge_geometry l H) in M. cbn in H. assert (C : l = 0 \/ l = 1) by lia. destruct C as [-> | ->]; [ discriminate M | reflexivity ].
  - intros ->. apply (mb_matches edge edge_f 1 edge_geometry); [ cbn; lia | reflexivity ].
Qed.
Lemma edge_refutes : exists s f i l st, geometry s /\ accepts s f = true /\ In i (pixels s) /\ bounded s f i /\ matches s f i l /\ match_cost s f i l 0 /\ reset (stereo_model s f) None = Some st /\ ~ matches s f i (lab st i).
Proof.
  destruct (reset_runs edge edge_f edge_geometry) as (st & E). exists edge, edge_f, 1, 1, st.
  assert (B : bounded edge edge_f 1) by (unfold bounded; cbn; repeat split; try lra; lia).
  assert (P : In 1 (pixels edge)) by (vm_compute; auto).
  split; [ exact edge_geometry |]. split; [ reflexivity |]. split; [ exact P |]. split; [ exact B |]. split; [ now apply edge_matches |].
  split; [ apply (dc_spec edge edge_f 1 1 (bounded_affinities _ _ _ B)); cbn; lia |]. split; [ exact E |].
  rewrite (start_first edge edge_f 1 st edge_geometry P (bounded_affinities _ _ _ B)); [ rewrite edge_matches; lia | rewrite edge_matches; lia | exact E ].
Qed.

Definition flat : setup := Setup 1 5 0 4 false (fun i => negb (i =? 4)) (fun _ _ => 0) (fun _ => []) real_add (approx_rem real_add).
Definition flat_f : features := Features (fun _ _ => 1#100) (fun _ _ => 0%Q) (fun _ => 1%Q) (fun _ => 1%Q) (fun _ => 0) (fun _ => 0) (fun i => negb (i =? 4)) (fun _ _ => 1%Q).
Lemma flat_geometry : geometry flat. Proof. unfold geometry; cbn; lia. Qed.
Lemma flat_matches l : matches flat flat_f 1 l <-> 0 <= l <= 1.
Proof.
  split.
  - intros M. pose proof M as [H _]. apply (mb_matches flat flat_f 1 flat_geometry l H) in M. cbn in H. assert (C : l = 0 \/ l = 1 \/ l = 2 \/ l = 3) by lia. destruct C as [-> | [-> | [-> | ->]]]; try discriminate M; lia.
  - intros H. apply (mb_matches flat flat_f 1 flat_geometry); [ cbn; lia |]. assert (C : l = 0 \/ l = 1) by lia. destruct C as [-> | ->]; reflexivity.
Qed.
Lemma flat_refutes : exists s f i st, geometry s /\ accepts s f = true /\ (forall j, other f j = inside s j) /\ In i (pixels s) /\ bounded s f i /\
  matches s f i 0 /\ (forall k l, img_aff f i k = img_aff f i l /\ shp_aff f i k = shp_aff f i l) /\ reset (stereo_model s f) None = Some st /\ ~ matches s f i (lab st i).
Proof.
  destruct (reset_runs flat flat_f flat_geometry) as (st & E). exists flat, flat_f, 1, st.
  assert (B : bounded flat flat_f 1) by (unfold bounded; cbn; repeat split; try lra; lia).
  assert (P : In 1 (pixels flat)) by (vm_compute; auto).
  split; [ exact flat_geometry |]. split; [ reflexivity |]. split; [ reflexivity |]. split; [ exact P |]. split; [ exact B |]. split; [ apply flat_matches; lia |]. split; [ split; reflexivity |]. split; [ exact E |].
  apply (start_unmatched flat flat_f 1 st 2 [0; 1] flat_geometry P (bounded_affinities _ _ _ B)); [ cbn; lia | rewrite flat_matches; lia | | | exact E ].
  - split; [ repeat constructor; cbn; lia |]. intros k. rewrite flat_matches. cbn. lia.
  - intros k K. apply flat_matches in K. assert (C : k = 0 \/ k = 1) by lia. destruct C as [-> | ->]; reflexivity.
Qed.

Definition half_f : features := Features (fun _ _ => 0%Q) (fun _ _ => 0%Q) (fun _ => 1%Q) (fun _ => 1%Q) (fun _ => 0) (fun _ => 0) (fun i => negb (i =? 4)) (fun _ _ => 1#2).
Lemma free_step : exists s f i c a b, geometry s /\ (forall i o, (0 < weight f i o)%Q) /\ In c (cliques (stereo_model s f) i) /\ 0 <= a < nreal s /\ 0 <= b < nreal s /\ a <> b /\ cost c [a; b] = 0.
Proof.
  exists flat, half_f, 0, (pair flat half_f 0 true 1), 0, 1. split; [ exact flat_geometry |]. split; [ reflexivity |]. split; [ left; reflexivity |]. cbn [nreal flat]. repeat split; try lia.
Qed.
Lemma not_metric : exists s f i c a b d, geometry s /\ weights f /\ In c (cliques (stereo_model s f) i) /\ 0 <= a < nreal s /\ 0 <= b < nreal s /\ 0 <= d < nreal s /\ cost c [a; b] + cost c [b; d] < cost c [a; d].
Proof.
  exists flat, flat_f, 0, (pair flat flat_f 0 true 1), 0, 1, 2. split; [ exact flat_geometry |]. split; [ intros i o; cbn; lra |]. split; [ left; reflexivity |]. cbn [nreal flat]. repeat split; try lia.
Qed.
