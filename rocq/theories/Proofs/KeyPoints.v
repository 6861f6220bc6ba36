From Coq Require Import ZArith QArith Qround List Bool Lia Lqa.
From Verif Require Import Lib.Grid Model.KeyPoints Spec.KeyPoints.
Import ListNotations.
Open Scope Z_scope.

(* roundings *)
Lemma floor_bounds q : (inject_Z (Qfloor q) <= q /\ q < inject_Z (Qfloor q) + 1)%Q.
Proof. split; [ apply Qfloor_le |]. assert (H := Qlt_floor q). rewrite inject_Z_plus in H. exact H. Qed.
Lemma inj_le a b : (inject_Z a <= inject_Z b)%Q <-> a <= b. Proof. rewrite <- Zle_Qle. tauto. Qed.
Lemma inj_lt a b : (inject_Z a < inject_Z b)%Q <-> a < b. Proof. rewrite <- Zlt_Qlt. tauto. Qed.
Lemma le_inj a b : (inject_Z a <= inject_Z b)%Q -> a <= b. Proof. apply (proj1 (inj_le a b)). Qed.
Lemma lt_inj a b : (inject_Z a < inject_Z b)%Q -> a < b. Proof. apply (proj1 (inj_lt a b)). Qed.
Lemma le_cast a b : a <= b -> (inject_Z a <= inject_Z b)%Q. Proof. apply (proj2 (inj_le a b)). Qed.
Lemma nearest_bounds q : (inject_Z (nearest q) - (1 # 2) <= q /\ q <= inject_Z (nearest q) + (1 # 2))%Q.
Proof.
  unfold nearest. destruct (floor_bounds q) as (A & B). destruct (q - inject_Z (Qfloor q) ?= 1 # 2)%Q eqn:E.
  - apply Qeq_alt in E. destruct (Z.even (Qfloor q)); rewrite ?inject_Z_plus; change (inject_Z 1) with 1%Q; lra.
  - apply Qlt_alt in E. lra.
  - apply Qgt_alt in E. rewrite inject_Z_plus. change (inject_Z 1) with 1%Q. lra.
Qed.
Lemma trunc_nonneg q : (0 <= q)%Q -> trunc q = Qfloor q.
Proof. intros H. unfold trunc, Qfloor. destruct q as [n d]. cbn [Qnum Qden]. apply Z.quot_div_nonneg; [| lia ]. unfold Qle in H. cbn in H. lia. Qed.
Lemma int_of_floor n : Qfloor (inject_Z n) = n. Proof. apply Qfloor_Z. Qed.
Lemma nearest_int n : nearest (inject_Z n) = n.
Proof. unfold nearest. rewrite int_of_floor. replace (inject_Z n - inject_Z n ?= 1 # 2)%Q with Lt; [ reflexivity |]. symmetry. apply (proj1 (Qlt_alt _ _)). lra. Qed.
Lemma trunc_int n : trunc (inject_Z n) = n. Proof. unfold trunc. cbn. apply Z.quot_1_r. Qed.
Lemma away_bounds q : (inject_Z (away q) - (1 # 2) <= q /\ q <= inject_Z (away q) + (1 # 2))%Q.
Proof.
  unfold away. destruct (Qle_bool 0 q) eqn:E.
  - destruct (floor_bounds (q + (1 # 2))) as (A & B). lra.
  - assert (A := Qle_ceiling (q - (1 # 2))). assert (B := Qceiling_lt (q - (1 # 2))). unfold Z.sub in B. rewrite inject_Z_plus in B. change (inject_Z (-(1))) with (-(1))%Q in B. lra.
Qed.

(* kept by the border filter *)
Lemma rect_spec lo hi v : inside_rect lo hi v = true <-> lo <= v < hi.
Proof. unfold inside_rect. rewrite andb_true_iff, Z.leb_le, Z.ltb_lt. tauto. Qed.
Lemma border_in rows cols b kps k : 0 < b -> (In k (run_by_border rows cols b kps) <-> In k kps /\ b <= nearest (kx k) < cols - b /\ b <= nearest (ky k) < rows - b).
Proof.
  intros B. unfold run_by_border. destruct (Z.leb_spec b 0); [ lia |]. destruct ((rows <=? b * 2) || (cols <=? b * 2)) eqn:E.
  - rewrite orb_true_iff, !Z.leb_le in E. split; [ intros [] | intros (_ & X & Y); lia ].
  - rewrite filter_In, andb_true_iff, !rect_spec. tauto.
Qed.
Lemma fits_spec rows cols b r c : 0 <= b -> (fits rows cols b r c <-> b <= r < rows - b /\ b <= c < cols - b).
Proof.
  intros B. unfold fits. split.
  - intros H. assert (A := H b b ltac:(lia) ltac:(lia)). assert (A' := H (- b) (- b) ltac:(lia) ltac:(lia)). lia.
  - intros H dy dx Y X. lia.
Qed.
Lemma border_exact rows cols b kps r c : 0 < b -> (In (at_pixel r c) (run_by_border rows cols b kps) <-> In (at_pixel r c) kps /\ fits rows cols b r c).
Proof. intros B. rewrite border_in, fits_spec by lia. cbn [kx ky at_pixel]. rewrite !nearest_int. tauto. Qed.
Lemma border_sublist rows cols b kps : exists p, run_by_border rows cols b kps = filter p kps.
Proof.
  unfold run_by_border. destruct (b <=? 0); [ exists (fun _ => true) |].
  - symmetry. apply filter_all. auto.
  - destruct ((rows <=? b * 2) || (cols <=? b * 2)); [ exists (fun _ => false); symmetry; apply filter_none; auto |]. eexists. reflexivity.
Qed.
Lemma readable_fits rows cols b p : 0 <= b -> (readable rows cols b p = true <-> fits rows cols b (fst p) (snd p)).
Proof. intros B. unfold readable. rewrite andb_true_iff, !rect_spec, fits_spec by exact B. tauto. Qed.

(* where kept keypoints are described *)
Lemma half_step (b n q f : Q) : (b <= n -> n - (1 # 2) <= q -> q < f + 1 -> b < f + 1 + 1)%Q.
Proof. intros. lra. Qed.
Lemma trunc_of_kept b lim q : 0 < b -> b <= nearest q < lim - b -> (trunc q < lim - b) /\ (b <= trunc q <-> (inject_Z b <= q)%Q) /\ b - 1 <= trunc q.
Proof.
  intros B (L & U). destruct (nearest_bounds q) as (N1 & N2).
  assert (A : (inject_Z b <= inject_Z (nearest q))%Q) by now apply inj_le.
  assert (A' : (inject_Z (nearest q) <= inject_Z (lim - b - 1))%Q) by (apply inj_le; lia).
  assert (B1 : (1 <= inject_Z b)%Q) by (apply (inj_le 1 b); lia).
  rewrite trunc_nonneg by lra. destruct (floor_bounds q) as (F1 & F2). split; [| split ].
  - apply inj_lt. replace (lim - b) with ((lim - b - 1) + 1) by lia. rewrite inject_Z_plus. change (inject_Z 1) with 1%Q. lra.
  - split; intros H.
    + apply le_cast in H. lra.
    + apply Z.lt_succ_r. unfold Z.succ. apply inj_lt. rewrite inject_Z_plus. change (inject_Z 1) with 1%Q. lra.
  - assert (H : (inject_Z b < inject_Z (Qfloor q + 1 + 1))%Q) by (rewrite !inject_Z_plus; change (inject_Z 1) with 1%Q; exact (half_step _ _ _ _ A N1 F2)). apply lt_inj in H. lia.
Qed.
Lemma kept_ok rows cols b kps k : 0 < b -> In k (run_by_border rows cols b kps) ->
  (fits rows cols b (fst (place k)) (snd (place k)) <-> (inject_Z b <= kx k)%Q /\ (inject_Z b <= ky k)%Q).
Proof.
  intros B K. apply border_in in K as (_ & X & Y); [| exact B ].
  destruct (trunc_of_kept b cols (kx k) B X) as (X1 & X2 & _). destruct (trunc_of_kept b rows (ky k) B Y) as (Y1 & Y2 & _).
  rewrite fits_spec by lia. unfold place. cbn [fst snd]. rewrite <- X2, <- Y2. lia.
Qed.
Lemma compute_rows_spec rows cols b kps : 0 < b ->
  (compute_rows rows cols b (run_by_border rows cols b kps) <> None <-> forall k, In k (run_by_border rows cols b kps) -> (inject_Z b <= kx k)%Q /\ (inject_Z b <= ky k)%Q).
Proof.
  intros B. unfold compute_rows. destruct (forallb _ _) eqn:F.
  - split; [| congruence ]. intros _ k K. rewrite forallb_forall in F. specialize (F k K). apply readable_fits in F; [| lia ]. now apply (kept_ok rows cols b kps).
  - split; [ congruence |]. intros H. exfalso. apply not_true_iff_false in F. apply F. apply forallb_forall. intros k K.
    apply readable_fits; [ lia |]. apply (kept_ok rows cols b kps k B K). now apply H.
Qed.
Definition half_before : keypoint := {| kx := 3 # 2; ky := 2 |}.
Lemma fraction_refuted : exists rows cols b k, 0 < b /\ run_by_border rows cols b [k] = [k] /\ ~ fits rows cols b (fst (place k)) (snd (place k)) /\ detect rows cols b None (Some [k]) = ([k], None).
Proof.
  exists 6, 6, 2, half_before. split; [ lia |]. split; [ reflexivity |]. split; [| reflexivity ].
  intros H. specialize (H 0 (-2) ltac:(lia) ltac:(lia)). cbn in H. lia.
Qed.

(* mutual information *)
Lemma mi_spec rows cols h w k : 0 < h -> 0 < w -> h mod 2 = 1 -> w mod 2 = 1 ->
  (mi_accepts rows cols h w k = true <-> window_fits rows cols h w (away (ky k)) (away (kx k))).
Proof.
  intros H W H2 W2. unfold mi_accepts, window_fits. cbv zeta. rewrite !andb_true_iff, !rect_spec.
  assert (E1 := Z.div_mod h 2 ltac:(lia)). assert (E2 := Z.div_mod w 2 ltac:(lia)). assert (0 <= h / 2) by (apply Z.div_pos; lia). assert (0 <= w / 2) by (apply Z.div_pos; lia). lia.
Qed.
Lemma away_near q : - 1 <= away q - nearest q <= 1.
Proof.
  destruct (nearest_bounds q) as (A & B). destruct (away_bounds q) as (A' & B').
  assert (H1 : (inject_Z (away q) <= inject_Z (nearest q + 1))%Q) by (rewrite inject_Z_plus; change (inject_Z 1) with 1%Q; lra).
  assert (H2 : (inject_Z (nearest q) <= inject_Z (away q + 1))%Q) by (rewrite inject_Z_plus; change (inject_Z 1) with 1%Q; lra).
  apply le_inj in H1; apply le_inj in H2. lia.
Qed.
Lemma mi_sound rows cols h w kps k : 0 < h -> 0 < w -> h mod 2 = 1 -> w mod 2 = 1 -> In k (mi_validate rows cols h w kps) -> mi_accepts rows cols h w k = true.
Proof.
  intros H W H2 W2 K. apply mi_spec; auto. unfold mi_validate in K. apply border_in in K as (_ & X & Y); [| lia ].
  assert (A := away_near (kx k)). assert (A' := away_near (ky k)). unfold window_fits.
  assert (E1 := Z.div_mod h 2 ltac:(lia)). assert (E2 := Z.div_mod w 2 ltac:(lia)). lia.
Qed.
Lemma mi_loses rows cols h w r c : 0 < h -> 0 < w -> h mod 2 = 1 -> w mod 2 = 1 -> window_fits rows cols h w r c ->
  (r < Z.max w h \/ rows - Z.max w h <= r \/ c < Z.max w h \/ cols - Z.max w h <= c) ->
  mi_accepts rows cols h w (at_pixel r c) = true /\ forall kps, ~ In (at_pixel r c) (mi_validate rows cols h w kps).
Proof.
  intros H W H2 W2 F L. assert (Aw : forall n, away (inject_Z n) = n).
  { intros n. assert (N := away_near (inject_Z n)). destruct (away_bounds (inject_Z n)) as (A & B).
    assert (C1 : (inject_Z (away (inject_Z n)) < inject_Z (n + 1))%Q) by (rewrite inject_Z_plus; change (inject_Z 1) with 1%Q; lra).
    assert (C2 : (inject_Z n < inject_Z (away (inject_Z n) + 1))%Q) by (rewrite inject_Z_plus; change (inject_Z 1) with 1%Q; lra).
    apply lt_inj in C1; apply lt_inj in C2. lia. }
  split; [ apply mi_spec; auto; cbn [kx ky at_pixel]; now rewrite !Aw |].
  intros kps K. unfold mi_validate in K. apply border_in in K as (_ & X & Y); [| lia ]. cbn [kx ky at_pixel] in X, Y. rewrite nearest_int in X, Y. lia.
Qed.

(* without given keypoints *)
Lemma dense_border rows cols b : 0 < b -> run_by_border rows cols b (dense_keys rows cols) = map (fun p => at_pixel (fst p) (snd p)) (grid b (rows - 2 * b) b (cols - 2 * b)).
Proof.
  intros B. unfold run_by_border, dense_keys. destruct (Z.leb_spec b 0); [ lia |]. destruct ((rows <=? b * 2) || (cols <=? b * 2)) eqn:E.
  - rewrite orb_true_iff, !Z.leb_le in E. unfold grid, zrange. destruct E as [E | E].
    + replace (Z.to_nat (rows - 2 * b)) with 0%nat by lia. reflexivity.
    + replace (Z.to_nat (cols - 2 * b)) with 0%nat by lia. cbn [zseq seq map]. symmetry. induction (zseq b (Z.to_nat (rows - 2 * b))) as [|x l IH]; [ reflexivity | exact IH ].
  - rewrite orb_false_iff, !Z.leb_gt in E. rewrite filter_map. f_equal. unfold grid.
    rewrite (filter_ext _ (fun p => inside_rect b (rows - b) (fst p) && inside_rect b (cols - b) (snd p))).
    + rewrite (filter_prod (fun r => inside_rect b (rows - b) r) (fun c => inside_rect b (cols - b) c)). f_equal.
      * rewrite <- (filter_zrange b (rows - 2 * b) rows) by lia. apply filter_ext. intros x. unfold inside_rect. do 2 f_equal. lia.
      * rewrite <- (filter_zrange b (cols - 2 * b) cols) by lia. apply filter_ext. intros x. unfold inside_rect. do 2 f_equal. lia.
    + intros p. cbn [kx ky at_pixel]. rewrite !nearest_int. apply andb_comm.
Qed.
Lemma detect_all rows cols b : 0 < b -> detect rows cols b None None = (map (fun p => at_pixel (fst p) (snd p)) (grid b (rows - 2 * b) b (cols - 2 * b)), Some (grid b (rows - 2 * b) b (cols - 2 * b))).
Proof.
  intros B. unfold detect. rewrite dense_border by exact B. f_equal. unfold compute_rows.
  replace (forallb _ _) with true.
  - f_equal. rewrite map_map. rewrite <- (map_id (grid b (rows - 2 * b) b (cols - 2 * b))) at 2. apply map_ext. intros p. unfold place. cbn [kx ky at_pixel]. rewrite !trunc_int. now rewrite <- surjective_pairing.
  - symmetry. apply forallb_forall. intros k K. apply in_map_iff in K as (p & <- & P). apply in_grid in P. apply readable_fits; [ lia |]. unfold place. cbn [kx ky at_pixel fst snd]. rewrite !trunc_int.
    apply fits_spec; lia.
Qed.
Lemma detect_count rows cols b : 0 < b -> 2 * b < rows -> 2 * b < cols -> Z.of_nat (length (fst (detect rows cols b None None))) = (rows - 2 * b) * (cols - 2 * b).
Proof. intros B R C. rewrite detect_all by exact B. cbn [fst]. rewrite map_length. apply grid_length; lia. Qed.
Lemma reshape_full rows cols b : 0 < b -> 2 * b < rows -> 2 * b < cols -> reshape rows cols (Z.of_nat (length (fst (detect rows cols b None None)))) = None.
Proof.
  intros B R C. rewrite detect_count by assumption. unfold reshape. destruct (_ =? _) eqn:E; [| now rewrite andb_false_r ]. apply Z.eqb_eq in E. nia.
Qed.
Lemma nth_prod {A B} (l : list A) (m : list B) i j a b : nth_error l i = Some a -> nth_error m j = Some b -> nth_error (list_prod l m) (i * length m + j) = Some (a, b).
Proof.
  revert i. induction l as [|x l IH]; intros i I J; [ destruct i; discriminate |]. cbn [list_prod]. destruct i as [|i].
  - injection I as ->. cbn [Nat.mul Nat.add]. rewrite nth_error_app1 by (rewrite map_length; apply nth_error_Some; congruence). rewrite nth_error_map, J. reflexivity.
  - cbn [nth_error] in I. rewrite nth_error_app2 by (rewrite map_length; cbn; lia). rewrite map_length. replace (S i * length m + j - length m)%nat with (i * length m + j)%nat by (cbn; lia). now apply IH.
Qed.
Lemma nth_zrange a n i : 0 <= i < n -> nth_error (zrange a n) (Z.to_nat i) = Some (a + i).
Proof.
  intros H. unfold zrange, zseq. rewrite nth_error_map. rewrite (nth_error_nth' _ 0%nat) by (rewrite seq_length; lia). rewrite seq_nth by lia. cbn [option_map]. do 2 f_equal. lia.
Qed.
Lemma reshape_inner rows cols b r c : 0 < b -> fits rows cols b r c ->
  reshape (rows - 2 * b) (cols - 2 * b) (Z.of_nat (length (fst (detect rows cols b None None)))) = Some (cols - 2 * b) /\
  exists l, snd (detect rows cols b None None) = Some l /\ nth_error l (Z.to_nat ((r - b) * (cols - 2 * b) + (c - b))) = Some (r, c).
Proof.
  intros B F. apply fits_spec in F; [| lia ]. split.
  - rewrite detect_count by lia. unfold reshape. rewrite Z.eqb_refl, andb_true_r. destruct (Z.ltb_spec 0 ((rows - 2 * b) * (cols - 2 * b))); [ reflexivity | nia ].
  - exists (grid b (rows - 2 * b) b (cols - 2 * b)). split; [ now rewrite detect_all |]. unfold grid.
    replace (Z.to_nat ((r - b) * (cols - 2 * b) + (c - b))) with (Z.to_nat (r - b) * length (zrange b (cols - 2 * b)) + Z.to_nat (c - b))%nat.
    + apply nth_prod; rewrite nth_zrange by lia; f_equal; lia.
    + unfold zrange at 1. rewrite zseq_length. rewrite Z2Nat.inj_add, Z2Nat.inj_mul by nia. reflexivity.
Qed.

(* a mask *)
Definition masked : keypoint := {| kx := 7 # 2; ky := 3 |}.
Lemma mask_refuted : exists rows cols b mask k, 0 < b /\ fst (detect rows cols b (Some mask) (Some [k])) = [k] /\ snd (detect rows cols b (Some mask) (Some [k])) = Some [place k] /\
  mask (fst (place k)) (snd (place k)) = false.
Proof. exists 8, 8, 2, (fun _ c => c =? 4), masked. split; [ lia |]. split; [ reflexivity |]. split; reflexivity. Qed.
Lemma mask_whole rows cols b mask kps k : 0 < b -> whole k -> In k (fst (detect rows cols b (Some mask) (Some kps))) -> mask (fst (place k)) (snd (place k)) = true.
Proof.
  intros B (r & c & ->) K. cbn [fst detect] in K. unfold detect in K. cbn [fst] in K. unfold run_by_mask in K. apply filter_In in K as (K & M).
  apply border_exact in K as (_ & F); [| exact B ]. apply fits_spec in F; [| lia ].
  unfold mask_pos in M. cbn [fst snd kx ky at_pixel] in M. unfold place. cbn [fst snd kx ky at_pixel]. rewrite !trunc_int.
  assert (T : forall n, 0 <= n -> trunc (inject_Z n + (1 # 2)) = n).
  { intros n N. assert (N' : (0 <= inject_Z n)%Q) by (apply (inj_le 0); exact N). rewrite trunc_nonneg by lra. destruct (floor_bounds (inject_Z n + (1 # 2))) as (A & A').
    assert (C1 : (inject_Z (Qfloor (inject_Z n + (1 # 2))) < inject_Z (n + 1))%Q) by (rewrite inject_Z_plus; change (inject_Z 1) with 1%Q; lra).
    assert (C2 : (inject_Z n < inject_Z (Qfloor (inject_Z n + (1 # 2)) + 1))%Q) by (rewrite inject_Z_plus; change (inject_Z 1) with 1%Q; lra).
    apply lt_inj in C1; apply lt_inj in C2. lia. }
  rewrite !T in M by lia. exact M.
Qed.
Lemma dasc_ignores rows cols reach kps kps' : 0 < reach -> dasc_keypoints rows cols reach kps = dasc_keypoints rows cols reach kps' /\
  dasc_keypoints rows cols reach kps = map (fun p => at_pixel (fst p) (snd p)) (grid reach (rows - 2 * reach) reach (cols - 2 * reach)).
Proof. intros H. split; [ reflexivity |]. now apply dense_border. Qed.

(* back into a map *)
Lemma same_spec p q : same p q = true <-> p = q.
Proof. unfold same. rewrite andb_true_iff, !Z.eqb_eq. destruct p, q. cbn [fst snd]. split; [ intros (-> & ->); reflexivity | intros E; injection E; auto ]. Qed.
Lemma put_whole one r c : lbsp_put one (at_pixel r c) = (r, c).
Proof. unfold lbsp_put, place. cbn [kx ky at_pixel]. rewrite !nearest_int, !trunc_int. now destruct one. Qed.
Definition rstep (one : bool) (rows cols : Z) (m : option outmap) (kd : keypoint * Z) : option outmap :=
  match m with
  | None => None
  | Some m => let p := lbsp_put one (fst kd) in
              if inside_rect 0 rows (fst p) && inside_rect 0 cols (snd p) then Some (fun q => if same q p then snd kd else m q) else None
  end.
Lemma reshape_fold one rows cols l : (forall kd, In kd l -> exists r c, fst kd = at_pixel r c /\ 0 <= r < rows /\ 0 <= c < cols) -> forall m0, exists m, fold_left (rstep one rows cols) l (Some m0) = Some m /\
  forall q, (forall d, ~ In (at_pixel (fst q) (snd q), d) l) -> m q = m0 q.
Proof.
  induction l as [|kd l IH]; intros H m0; cbn [fold_left]; [ exists m0; auto |].
  destruct (H kd ltac:(now left)) as (r & c & E & R & C). destruct kd as [k d]. cbn [fst] in E. subst k.
  unfold rstep at 2. cbn [fst snd]. rewrite put_whole. cbn [fst snd]. rewrite (proj2 (rect_spec 0 rows r) ltac:(lia)), (proj2 (rect_spec 0 cols c) ltac:(lia)). cbn [andb].
  destruct (IH ltac:(intros kd K; apply H; now right) (fun q => if same q (r, c) then d else m0 q)) as (m & F & N). exists m. split; [ exact F |].
  intros q Q. rewrite N by (intros d' K; apply (Q d'); now right). destruct (same q (r, c)) eqn:S; [| reflexivity ]. apply same_spec in S. subst q. exfalso. apply (Q d). now left.
Qed.
Lemma at_pixel_inj r c r' c' : at_pixel r c = at_pixel r' c' -> r = r' /\ c = c'.
Proof. unfold at_pixel. intros E. injection E. intros. split; assumption. Qed.
Lemma in_combine_nth {A B} (l : list A) (m : list B) a b : In (a, b) (combine l m) -> exists i, nth_error l i = Some a /\ nth_error m i = Some b.
Proof.
  revert m. induction l as [|x l IH]; intros [|y m] I; try destruct I.
  - injection H as -> ->. exists 0%nat. auto.
  - destruct (IH m H) as (i & I1 & I2). exists (S i). auto.
Qed.
Lemma nth_combine {A B} (l : list A) (m : list B) i a b : nth_error l i = Some a -> nth_error m i = Some b -> nth_error (combine l m) i = Some (a, b).
Proof. revert m i. induction l as [|x l IH]; intros [|y m] [|i] I J; try discriminate; [ injection I as ->; injection J as ->; reflexivity | now apply IH ]. Qed.
Lemma lbsp_reshape_ok one rows cols pos descs : length pos = length descs -> NoDup pos -> (forall p, In p pos -> 0 <= fst p < rows /\ 0 <= snd p < cols) ->
  exists m, lbsp_reshape one rows cols (map (fun p => at_pixel (fst p) (snd p)) pos) descs = Some m /\
  (forall i p d, nth_error pos i = Some p -> nth_error descs i = Some d -> m p = d) /\ (forall p, ~ In p pos -> m p = 0).
Proof.
  intros L N B. set (kps := map (fun p => at_pixel (fst p) (snd p)) pos). set (l := combine kps descs).
  assert (H : forall kd, In kd l -> exists r c, fst kd = at_pixel r c /\ 0 <= r < rows /\ 0 <= c < cols).
  { intros (k & d) K. apply in_combine_l in K. apply in_map_iff in K as (p & <- & P). exists (fst p), (snd p). split; [ reflexivity | now apply B ]. }
  change (lbsp_reshape one rows cols kps descs) with (fold_left (rstep one rows cols) l (Some (fun _ => 0))).
  destruct (reshape_fold one rows cols l H (fun _ => 0)) as (m & F & Z0). exists m. split; [ exact F |]. split.
  - intros i p d I D. assert (J : nth_error l i = Some (at_pixel (fst p) (snd p), d)) by (apply nth_combine; [ unfold kps; rewrite nth_error_map, I; reflexivity | exact D ]).
    destruct (nth_error_split _ _ J) as (l1 & l2 & E & Li). rewrite E in F, H. rewrite fold_left_app in F. cbn [fold_left] in F.
    destruct (reshape_fold one rows cols l1 ltac:(intros kd K; apply H; apply in_or_app; now left) (fun _ => 0)) as (m1 & F1 & _). rewrite F1 in F.
    destruct (H (at_pixel (fst p) (snd p), d) ltac:(apply in_or_app; right; now left)) as (r & c & Ep & R & C). cbn [fst] in Ep. apply at_pixel_inj in Ep as (Er & Ec).
    unfold rstep at 2 in F. cbn [fst snd] in F. rewrite put_whole in F. cbn [fst snd] in F. rewrite (proj2 (rect_spec 0 rows (fst p)) ltac:(lia)), (proj2 (rect_spec 0 cols (snd p)) ltac:(lia)) in F. cbn [andb] in F.
    destruct (reshape_fold one rows cols l2 ltac:(intros kd K; apply H; apply in_or_app; right; now right) (fun q => if same q (fst p, snd p) then d else m1 q)) as (m2 & F2 & N2).
    assert (Em := eq_trans (eq_sym F) F2). injection Em as ->. rewrite N2.
    + rewrite (proj2 (same_spec p (fst p, snd p)) (surjective_pairing p)). reflexivity.
    + intros d' K. apply In_nth_error in K as (j & K).
      assert (K' : nth_error l (S (i + j)) = Some (at_pixel (fst p) (snd p), d')).
      { rewrite E. rewrite nth_error_app2 by lia. rewrite <- Li. replace (S (length l1 + j) - length l1)%nat with (S j) by lia. exact K. }
      assert (Kk : In (at_pixel (fst p) (snd p), d') l) by (eapply nth_error_In; eauto).
      assert (P2 : nth_error pos (S (i + j)) = Some p).
      { assert (X : nth_error kps (S (i + j)) = Some (at_pixel (fst p) (snd p))).
        { destruct (nth_error kps (S (i + j))) as [k|] eqn:X.
          - destruct (nth_error descs (S (i + j))) as [d2|] eqn:Y.
            + assert (W := nth_combine kps descs _ _ _ X Y). fold l in W. rewrite W in K'. congruence.
            + exfalso. apply nth_error_None in Y. assert (length l <= S (i + j))%nat by (unfold l; rewrite combine_length; lia). apply nth_error_None in H0. congruence.
          - exfalso. apply nth_error_None in X. assert (length l <= S (i + j))%nat by (unfold l; rewrite combine_length; lia). apply nth_error_None in H0. congruence. }
        unfold kps in X. rewrite nth_error_map in X. destruct (nth_error pos (S (i + j))) as [p'|]; [| discriminate ]. cbn [option_map] in X. injection X as X1 X2. destruct p, p'. cbn [fst snd] in *. congruence. }
      assert (Bd : (i < length pos)%nat) by (apply nth_error_Some; congruence).
      assert (Eq : i = S (i + j)) by (apply (proj1 (NoDup_nth_error pos) N i _ Bd); congruence). lia.
  - intros p P. apply Z0. intros d K. apply in_combine_l in K. unfold kps in K. apply in_map_iff in K as (p' & E & P'). apply at_pixel_inj in E as (E1 & E2). apply P.
    destruct p, p'. cbn [fst snd] in *. now subst.
Qed.
Definition shifted : keypoint := {| kx := 18 # 5; ky := 3 |}.
Lemma lbsp_reshape_refuted : exists rows cols k d m1 m3, detect rows cols 2 None (Some [k]) = ([k], Some [place k]) /\ d <> 0 /\
  lbsp_reshape true rows cols [k] [d] = Some m1 /\ lbsp_reshape false rows cols [k] [d] = Some m3 /\ m1 (place k) = 0 /\ m3 (place k) = d.
Proof.
  exists 8, 8, shifted, 5. eexists. eexists. split; [ reflexivity |]. split; [ lia |]. split; [ reflexivity |]. split; [ reflexivity |]. split; reflexivity.
Qed.

(* lv::validateKeyPoints *)
Lemma bounds_spec rows cols k : in_bounds rows cols k = true <-> ((0 <= kx k /\ kx k < inject_Z cols) /\ (0 <= ky k /\ ky k < inject_Z rows))%Q.
Proof.
  assert (L : forall a b, qlt a b = true <-> (a < b)%Q). { intros a b. unfold qlt. rewrite negb_true_iff, <- not_true_iff_false, Qle_bool_iff. split; [ apply Qnot_le_lt | apply Qlt_not_le ]. }
  unfold in_bounds. rewrite !andb_true_iff, !Qle_bool_iff, !L. tauto.
Qed.
Lemma validate_whole rows cols roi kps : (forall k, In k kps -> whole k) ->
  exists l, validate rows cols roi kps = Some l /\ (exists p, l = filter p kps) /\ forall r c, In (at_pixel r c) l <-> In (at_pixel r c) kps /\ 0 <= r < rows /\ 0 <= c < cols /\ 0 < roi r c.
Proof.
  intros W. assert (G : validate rows cols roi kps = Some (filter (fun k => in_bounds rows cols k && (0 <? roi (nearest (ky k)) (nearest (kx k)))) kps)).
  { induction kps as [|k kps IH]; [ reflexivity |]. cbn [validate fold_right]. fold (validate rows cols roi kps). rewrite IH by (intros k' K; apply W; now right).
    cbn [filter]. destruct (W k ltac:(now left)) as (r & c & ->). destruct (in_bounds rows cols (at_pixel r c)) eqn:B; [| reflexivity ]. cbn [andb kx ky at_pixel].
    apply bounds_spec in B. cbn [kx ky at_pixel] in B. destruct B as ((X1 & X2) & (Y1 & Y2)). apply (le_inj 0) in X1; apply (le_inj 0) in Y1. apply lt_inj in X2; apply lt_inj in Y2.
    rewrite !nearest_int. rewrite (proj2 (rect_spec 0 rows r) ltac:(lia)), (proj2 (rect_spec 0 cols c) ltac:(lia)). cbn [andb]. now destruct (0 <? roi r c). }
  eexists. split; [ exact G |]. split; [ eexists; reflexivity |]. intros r c. rewrite filter_In, andb_true_iff, bounds_spec, Z.ltb_lt. cbn [kx ky at_pixel]. rewrite !nearest_int.
  rewrite <- (inj_le 0 c), <- (inj_le 0 r), <- (inj_lt c cols), <- (inj_lt r rows). tauto.
Qed.
Definition last_half : keypoint := {| kx := 19 # 5; ky := 1 |}.
Lemma validate_refuted : exists rows cols roi k, ((0 <= kx k /\ kx k < inject_Z cols) /\ (0 <= ky k /\ ky k < inject_Z rows))%Q /\ validate rows cols roi [k] = None.
Proof. exists 4, 4, (fun _ _ => 255), last_half. split; [ split; split; unfold Qle, Qlt; cbn; lia |]. reflexivity. Qed.
Lemma nearest_rounded q : rounded q (nearest q).
Proof.
  split; [ apply nearest_bounds |]. unfold nearest. destruct (floor_bounds q) as (A & B). destruct (q - inject_Z (Qfloor q) ?= 1 # 2)%Q eqn:E.
  - destruct (Z.even (Qfloor q)) eqn:V; [ auto |]. intros _. rewrite Z.add_1_r, Z.even_succ, <- Z.negb_even, V. reflexivity.
  - apply Qlt_alt in E. intros [H|H]; exfalso; lra.
  - apply Qgt_alt in E. rewrite !inject_Z_plus. change (inject_Z 1) with 1%Q. intros [H|H]; exfalso; lra.
Qed.
Lemma rounded_unique q m n : rounded q m -> rounded q n -> m = n.
Proof.
  intros [[A B] T] [[C D] U]. assert (X : (inject_Z m <= inject_Z n + inject_Z 1)%Q) by (change (inject_Z 1) with 1%Q; lra). assert (Y : (inject_Z n <= inject_Z m + inject_Z 1)%Q) by (change (inject_Z 1) with 1%Q; lra).
  rewrite <- inject_Z_plus, <- Zle_Qle in X, Y. destruct (Z.eq_dec m n) as [|N]; [ assumption |]. exfalso. assert (H : m = n + 1 \/ n = m + 1) by lia. destruct H as [-> | ->]; rewrite inject_Z_plus in *; change (inject_Z 1) with 1%Q in *.
  - assert (P : Z.even (n + 1) = true) by (apply T; left; lra). assert (Q : Z.even n = true) by (apply U; right; lra). rewrite Z.add_1_r, Z.even_succ, <- Z.negb_even, Q in P. discriminate.
  - assert (P : Z.even (m + 1) = true) by (apply U; left; lra). assert (Q : Z.even m = true) by (apply T; right; lra). rewrite Z.add_1_r, Z.even_succ, <- Z.negb_even, Q in P. discriminate.
Qed.
Lemma border_rounded rows cols b kps k r c : 0 < b -> rounded (ky k) r -> rounded (kx k) c -> (In k (run_by_border rows cols b kps) <-> In k kps /\ fits rows cols b r c).
Proof.
  intros B R C. rewrite (rounded_unique _ _ _ R (nearest_rounded _)), (rounded_unique _ _ _ C (nearest_rounded _)). rewrite border_in, fits_spec by lia. tauto.
Qed.
