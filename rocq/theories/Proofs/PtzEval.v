From Coq Require Import ZArith Reals Bool List Lra Lia Permutation.
From Verif Require Import Lib.Grid Model.Ptz Model.PtzCamera Model.PtzEval Spec.Ptz Spec.PtzCamera Spec.PtzEval Proofs.Ptz Proofs.PtzCamera.
Import ListNotations.
Open Scope R_scope.

(** overlap *)
Lemma size_unique {A} (P : A -> Prop) m n : has_size P m -> has_size P n -> m = n.
Proof.
  intros (l & N & I1 & <-) (k & M & I2 & <-). apply Permutation_length, NoDup_Permutation; auto. intro x. rewrite I1, I2. tauto.
Qed.
Definition cells (r : rect) : list (Z * Z) := map (fun p => (snd p, fst p)) (grid (ry r) (rh r) (rx r) (rw r)).
Lemma in_cells r p : In p (cells r) <-> covers r p.
Proof.
  unfold cells, covers. rewrite in_map_iff. split.
  - intros (q & <- & Q). apply in_grid in Q. cbn. tauto.
  - intro H. exists (snd p, fst p). destruct p as (a & b). split; [ reflexivity |]. apply in_grid. cbn in *. tauto.
Qed.
Lemma nodup_cells r : NoDup (cells r).
Proof.
  unfold cells. apply FinFun.Injective_map_NoDup; [| apply nodup_grid ]. intros (a & b) (c & d) E. cbn in E. now injection E as -> ->.
Qed.
Lemma cells_length r : (0 <= rw r)%Z -> (0 <= rh r)%Z -> Z.of_nat (length (cells r)) = area r.
Proof. intros W H. unfold cells, area. rewrite map_length, grid_length by assumption. lia. Qed.
Lemma covers_meet a b p : covers (meet a b) p <-> covers a p /\ covers b p.
Proof.
  unfold covers, meet. cbv zeta. destruct (_ || _)%bool eqn:E; cbn [rx ry rw rh].
  - rewrite orb_true_iff, !Z.leb_le in E. lia.
  - lia.
Qed.
Lemma meet_size a b : (0 <= rw (meet a b))%Z /\ (0 <= rh (meet a b))%Z.
Proof. unfold meet. cbv zeta. destruct (_ || _)%bool eqn:E; cbn [rw rh]; [ lia |]. rewrite orb_false_iff, !Z.leb_gt in E. lia. Qed.
Definition coversb (r : rect) (p : Z * Z) : bool := ((rx r <=? fst p) && (fst p <? rx r + rw r) && (ry r <=? snd p) && (snd p <? ry r + rh r))%Z.
Lemma coversb_spec r p : coversb r p = true <-> covers r p.
Proof. unfold coversb, covers. rewrite !andb_true_iff, !Z.leb_le, !Z.ltb_lt. tauto. Qed.
Lemma inter_size a b : has_size (fun p => covers a p /\ covers b p) (length (cells (meet a b))).
Proof. exists (cells (meet a b)). split; [ apply nodup_cells |]. split; [| reflexivity ]. intro p. rewrite in_cells. apply covers_meet. Qed.
Lemma union_size a b : has_size (fun p => covers a p \/ covers b p) (length (cells a) + length (filter (fun p => negb (coversb a p)) (cells b))).
Proof.
  exists (cells a ++ filter (fun p => negb (coversb a p)) (cells b)). split; [| split; [| apply app_length ]].
  - assert (forall (l k : list (Z * Z)), NoDup l -> NoDup k -> (forall x, In x l -> ~ In x k) -> NoDup (l ++ k)) as D.
    { induction l as [|x l IH]; intros k L K X; [ exact K |]. cbn. inversion L; subst. constructor.
      - rewrite in_app_iff. intros [Y|Y]; [ contradiction |]. apply (X x); [ now left | exact Y ].
      - apply IH; auto. intros y Y. apply X. now right. }
    apply D; [ apply nodup_cells | apply NoDup_filter, nodup_cells |]. intros x X Y. apply filter_In in Y. destruct Y as (_ & Y). apply in_cells, coversb_spec in X. rewrite X in Y. discriminate.
  - intro p. rewrite in_app_iff, filter_In, !in_cells, negb_true_iff. pose proof (coversb_spec a p) as S. destruct (coversb a p); split; intros H; try tauto.
Qed.
Lemma union_length a b : (length (cells a) + length (filter (fun p => negb (coversb a p)) (cells b)) + length (cells (meet a b)) = length (cells a) + length (cells b))%nat.
Proof.
  assert (E : length (cells (meet a b)) = length (filter (coversb a) (cells b))).
  { apply (size_unique (fun p => covers a p /\ covers b p)); [ apply inter_size |]. exists (filter (coversb a) (cells b)). split; [ apply NoDup_filter, nodup_cells |]. split; [| reflexivity ].
    intro p. rewrite filter_In, in_cells, coversb_spec. tauto. }
  rewrite E. assert (X : forall (f : Z * Z -> bool) l, (length (filter f l) + length (filter (fun p => negb (f p)) l) = length l)%nat) by (intros f l; induction l as [|x l IH]; [ reflexivity |]; cbn; destruct (f x); cbn; lia).
  pose proof (X (coversb a) (cells b)). lia.
Qed.
Lemma meet_le a b : (length (cells (meet a b)) <= length (cells b) /\ length (cells (meet a b)) <= length (cells a))%nat.
Proof. split; (apply NoDup_incl_length; [ apply nodup_cells |]; intros p P; apply in_cells, covers_meet in P; apply in_cells; tauto). Qed.
Lemma overlap_sizes a b i u : (0 <= rw a)%Z -> (0 <= rh a)%Z -> (0 <= rw b)%Z -> (0 <= rh b)%Z ->
  has_size (fun p => covers a p /\ covers b p) i -> has_size (fun p => covers a p \/ covers b p) u -> overlap a b = over (INR i) (INR u) /\ (i <= u)%nat.
Proof.
  intros A1 A2 B1 B2 I1 U1. pose proof (size_unique _ _ _ I1 (inter_size a b)) as ->. pose proof (size_unique _ _ _ U1 (union_size a b)) as E. pose proof (union_length a b) as L. rewrite <- E in L. clear E U1 I1.
  destruct (meet_size a b) as (M1 & M2). pose proof (cells_length _ M1 M2) as M. pose proof (cells_length _ A1 A2) as A. pose proof (cells_length _ B1 B2) as B.
  assert (Z.of_nat u = area a + area b - area (meet a b))%Z as E by lia. unfold overlap. cbv zeta. rewrite <- minus_IZR, <- E, <- M, <- !INR_IZR_INZ. split; [ reflexivity |].
  pose proof (meet_le a b). lia.
Qed.
Lemma over_bounds i u q : (i <= u)%nat -> over (INR i) (INR u) = Some q -> 0 <= q <= 1.
Proof.
  intros L. unfold over. destruct (Req_EM_T (INR u) 0) as [|N]; [ discriminate |]. intro E. injection E as <-. pose proof (pos_INR i). pose proof (pos_INR u). assert (INR i <= INR u) by now apply le_INR. assert (0 < INR u) by lra.
  split; [ apply Rmult_le_pos; [ lra | apply Rlt_le, Rinv_0_lt_compat; lra ] | apply Rmult_le_reg_r with (INR u); [ lra |]; unfold Rdiv; rewrite Rmult_assoc, Rinv_l; lra ].
Qed.
Lemma overlap_bounds a b q : (0 <= rw a)%Z -> (0 <= rh a)%Z -> (0 <= rw b)%Z -> (0 <= rh b)%Z -> overlap a b = Some q -> 0 <= q <= 1.
Proof. intros A1 A2 B1 B2 E. destruct (overlap_sizes a b _ _ A1 A2 B1 B2 (inter_size a b) (union_size a b)) as (F & L). rewrite F in E. exact (over_bounds _ _ _ L E). Qed.
Lemma overlap_one a b : (0 < rw a)%Z -> (0 < rh a)%Z -> (0 <= rw b)%Z -> (0 <= rh b)%Z -> overlap a b = Some 1 <-> a = b.
Proof.
  intros A1 A2 B1 B2. split.
  - intro E. destruct (overlap_sizes a b _ _ ltac:(lia) ltac:(lia) B1 B2 (inter_size a b) (union_size a b)) as (F & L). rewrite F in E. unfold over in E. destruct (Req_EM_T _ 0) as [|N]; [ discriminate |]. injection E as E.
    assert (Q : INR (length (cells (meet a b))) = INR (length (cells a) + length (filter (fun p => negb (coversb a p)) (cells b)))). { apply Rmult_eq_reg_r with (/ INR (length (cells a) + length (filter (fun p => negb (coversb a p)) (cells b)))); [ rewrite Rinv_r by exact N; exact E | now apply Rinv_neq_0_compat ]. }
    apply INR_eq in Q. pose proof (union_length a b) as U. destruct (meet_size a b) as (M1 & M2).
    pose proof (cells_length _ M1 M2) as M. pose proof (cells_length a ltac:(lia) ltac:(lia)) as A. pose proof (cells_length b B1 B2) as B.
    pose proof (meet_le a b) as ML. assert (area (meet a b) = area a) as X by lia. assert (area (meet a b) = area b) as Y by lia.
    assert (P : forall p, covers a p <-> covers b p).
    { intro p. assert (G : forall r, (0 <= rw r)%Z -> (0 <= rh r)%Z -> (forall q, covers (meet a b) q -> covers r q) -> length (cells (meet a b)) = length (cells r) -> covers r p -> covers (meet a b) p).
      { intros r _ _ I1 L1 C. apply in_cells. apply in_cells in C. revert p C. apply NoDup_length_incl; [ apply nodup_cells | lia |]. intros q Q1. apply in_cells. apply I1. now apply in_cells. }
      split; intro C.
      - apply (G a) in C; try lia; [ now apply covers_meet in C |]. intros q Q1. now apply covers_meet in Q1.
      - apply (G b) in C; try lia; [ now apply covers_meet in C |]. intros q Q1. now apply covers_meet in Q1. }
    assert (B3 : (0 < rw b /\ 0 < rh b)%Z). { assert (0 < area a)%Z by (unfold area; nia). unfold area in *. nia. }
    pose proof (P (rx a, ry a)) as P1. pose proof (P (rx b, ry b)) as P2. pose proof (P (rx a + rw a - 1, ry a + rh a - 1)%Z) as P3. pose proof (P (rx b + rw b - 1, ry b + rh b - 1)%Z) as P4. unfold covers in *. cbn [fst snd] in *.
    destruct a as [x y w h], b as [x' y' w' h']. cbn [rx ry rw rh] in *. f_equal; lia.
  - intros <-. assert (M : meet a a = a). { unfold meet. cbv zeta. rewrite !Z.max_id, !Z.min_id. replace (rx a + rw a - rx a)%Z with (rw a) by lia. replace (ry a + rh a - ry a)%Z with (rh a) by lia. replace (_ || _)%bool with false; [ now destruct a |]. symmetry. rewrite orb_false_iff, !Z.leb_gt. lia. }
    unfold overlap. cbv zeta. rewrite M, plus_IZR. assert (0 < area a)%Z by (unfold area; nia). apply IZR_lt in H. unfold over. destruct (Req_EM_T _ 0) as [|N]; [ lra |]. f_equal. field. lra.
Qed.

(** sessions *)
Definition is_lost (s : test) (e : compared) : bool := lost (width (lens (cam s))) (height (lens (cam s))) (px e) (py e) (given e).
Definition error_of (e : compared) : R := norm (px e - round_half (rx (given e) + (rx (given e) + rw (given e)))) (py e - round_half (ry (given e) + (ry (given e) + rh (given e)))).
Definition offset_of (w h : Z) (e : compared) : R := norm (px e - Z.quot w 2) (py e - Z.quot h 2).
Definition sum_opt (l : list (option R)) : option R := fold_right add (Some 0) l.
Lemma Some_inj {A} (a b : A) : Some a = Some b -> a = b. Proof. congruence. Qed.
Lemma update_spec s a b f h v bw bh r s' : update s a b f h v bw bh r = Some s' -> queried s = true /\ exists e, compared_now s (Result a b f h v bw bh r) = [e] /\ given e = r /\
  s' = {| first := first s; last := last s; total := total s; cam := cam s; queried := false;
          out_of_view := if is_lost s e then (out_of_view s + 1)%Z else out_of_view s; processed := (processed s + 1)%Z;
          error_sum := if is_lost s e then error_sum s else add (error_sum s) (Some (error_of e));
          offset_sum := if is_lost s e then offset_sum s else add (offset_sum s) (Some (offset_of (width (lens (cam s))) (height (lens (cam s))) e));
          overlap_sum := add (overlap_sum s) (overlap (truth e) r); gt_box := truth e |}.
Proof.
  unfold update. destruct (queried s) eqn:Q; [| discriminate ]. cbn [negb]. cbv zeta. intro X. split; [ reflexivity |]. unfold compared_now. cbv zeta.
  destruct (negb (good_angles h v)) eqn:G; [ discriminate |].
  destruct (hv_to_xy (lens (cam s)) h v) as [| | |x y] eqn:P; [ discriminate | | discriminate |];
    (destruct (bounding_box _ _ _ _) as [| | |x' y' w' h'] eqn:B; [ discriminate | | discriminate |]).
  - eexists. split; [ reflexivity |]. split; [ reflexivity |]. cbv beta iota in X. apply Some_inj in X. rewrite <- X. reflexivity.
  - eexists. split; [ reflexivity |]. split; [ reflexivity |]. cbv beta iota in X. apply Some_inj in X. rewrite <- X. reflexivity.
  - eexists. split; [ reflexivity |]. split; [ reflexivity |]. cbv beta iota in X. apply Some_inj in X. rewrite <- X. reflexivity.
  - eexists. split; [ reflexivity |]. split; [ reflexivity |]. cbv beta iota in X. apply Some_inj in X. rewrite <- X. reflexivity.
Qed.
Lemma next_spec s w t u t' u' ok s' : next_frame s w t u t' u' ok = Some s' -> (0 <= frame (cam s))%Z -> 
  first s' = first s /\ last s' = last s /\ total s' = total s /\ out_of_view s' = out_of_view s /\ processed s' = processed s /\ error_sum s' = error_sum s /\ offset_sum s' = offset_sum s /\
  overlap_sum s' = overlap_sum s /\ gt_box s' = gt_box s /\ (frame (cam s) <= frame (cam s'))%Z /\ (queried s' = true -> (first s <= frame (cam s') <= last s)%Z /\ (frame (cam s) < frame (cam s'))%Z) /\
  width (lens (cam s')) = width (lens (cam s)) /\ height (lens (cam s')) = height (lens (cam s)) /\ count (cam s') = count (cam s).
Proof.
  unfold next_frame. cbv zeta. intros X F. destruct (match w with Pixel x y => _ | Angles h v => _ end) as [c|] eqn:M; [| discriminate ].
  assert (K : frame c = frame (cam s) /\ width (lens c) = width (lens (cam s)) /\ height (lens c) = height (lens (cam s)) /\ count c = count (cam s)).
  { destruct w as [x y|h v].
    - apply go_to_spec in M. destruct M as (_ & _ & _ & _ & _ & _ & M). rewrite M. cbn. auto.
    - cbn [set] in M. destruct (_ || _)%bool; [ discriminate |]. injection M as <-. cbn. auto. }
  destruct K as (K1 & K2 & K3 & K4). destruct (wait c t u) as [(d & more)|] eqn:W; [| discriminate ]. injection X as <-. cbn [first last total out_of_view processed error_sum offset_sum overlap_sum gt_box cam queried].
  pose proof (wait_frames _ _ _ _ _ W) as (A & B & D & E). assert (L : lens d = lens c). { apply wait_spec in W. destruct W as [(_ & -> & _)|(_ & i & _ & -> & _)]; reflexivity. }
  set (inside := (more && negb (frame d <? first s)%Z && negb (last s <? frame d)%Z)%bool). set (d' := if inside then get_frame d ok t' u' else d).
  assert (D' : frame d' = frame d /\ lens d' = lens d /\ count d' = count d) by (unfold d', get_frame; destruct inside; [ destruct ok |]; auto). destruct D' as (-> & -> & ->). rewrite L.
  assert (I0 : (inside && ok)%bool = true -> more = true /\ (first s <= frame d <= last s)%Z). { unfold inside. rewrite !andb_true_iff, !negb_true_iff, !Z.ltb_ge. lia || (intros (((H1 & H2) & H3) & H4); auto). }
  repeat split; try assumption; try reflexivity; try lia; try (intro; apply I0; assumption); try (apply I0 in H; lia).
  - apply I0 in H. destruct H as (H & _). apply D in H. lia.
Qed.
Lemma begin_spec s t s' : begin_test s t = Some s' -> first s' = first s /\ last s' = last s /\ total s' = total s /\ queried s' = false /\ out_of_view s' = 0%Z /\ processed s' = 0%Z /\
  error_sum s' = Some 0 /\ offset_sum s' = Some 0 /\ overlap_sum s' = Some 0 /\ gt_box s' = gt_box s /\ frame (cam s') = first s /\ (0 <= first s < count (cam s))%Z /\ lens (cam s') = lens (cam s) /\ count (cam s') = count (cam s).
Proof.
  unfold begin_test, begin_playing. cbn [set]. destruct (_ || _)%bool eqn:E; [ discriminate |]. intro X. injection X as <-. cbn. apply orb_false_iff in E. destruct E as (E1 & E2). apply ltb_false in E1, E2.
  apply le_IZR in E1, E2. assert (T : trunc (IZR (first s)) = first s).
  { destruct (trunc_nonneg (IZR (first s)) (IZR_le _ _ E2)) as ((L & U) & _). rewrite <- (plus_IZR _ 1) in U. apply le_IZR in L. apply lt_IZR in U. lia. }
  repeat split; auto; lia.
Qed.
(* the counters and sums tell the history *)
Definition agrees (w h : Z) (s : test) (l : list compared) : Prop :=
  let good e := negb (lost w h (px e) (py e) (given e)) in
  width (lens (cam s)) = w /\ height (lens (cam s)) = h /\ (0 <= frame (cam s))%Z /\
  processed s = Z.of_nat (length l) /\ out_of_view s = (Z.of_nat (length l) - Z.of_nat (length (filter good l)))%Z /\
  error_sum s = Some (total_of (map error_of (filter good l))) /\ offset_sum s = Some (total_of (map (offset_of w h) (filter good l))) /\
  overlap_sum s = sum_opt (map (fun e => overlap (truth e) (given e)) l).
Lemma total_app a b : total_of (a ++ b) = total_of a + total_of b.
Proof. unfold total_of. induction a as [|x a IH]; cbn; [ lra | rewrite IH; lra ]. Qed.
Lemma add_zero x : add (Some 0) x = x. Proof. destruct x; cbn; [ f_equal; lra | reflexivity ]. Qed.
Lemma sum_opt_snoc a x : sum_opt (a ++ [x]) = add (sum_opt a) x.
Proof.
  unfold sum_opt. induction a as [|y a IH]; cbn.
  - destruct x; cbn; [ f_equal; lra | reflexivity ].
  - rewrite IH. destruct y, (fold_right add (Some 0) a), x; cbn; try reflexivity. f_equal. lra.
Qed.
Lemma run_agrees w h ks : forall s l s', agrees w h s l -> run s ks = Some s' -> agrees w h s' (l ++ history s ks).
Proof.
  induction ks as [|k ks IH]; intros s l s' A X; cbn [run history] in *.
  - injection X as <-. now rewrite app_nil_r.
  - destruct (run1 s k) as [s1|] eqn:E; [| discriminate ]. rewrite app_assoc. apply IH; [| exact X ]. clear IH X. unfold agrees in *. cbv zeta in *. destruct A as (A1 & A2 & A3 & A4 & A5 & A6 & A7 & A8). destruct k as [p t u t' u' ok|a b f hh v bw bh r]; cbn [run1] in E.
    + apply next_spec in E; [| exact A3 ]. destruct E as (_ & _ & _ & -> & -> & -> & -> & -> & _ & F & _ & -> & -> & _). cbn [compared_now]. rewrite app_nil_r. repeat split; try assumption. lia.
    + apply update_spec in E. destruct E as (_ & e & -> & G & ->). cbn [cam processed out_of_view error_sum offset_sum overlap_sum]. unfold is_lost. rewrite A1, A2. rewrite app_length, filter_app, !map_app, !total_app. cbn [length map filter].
      rewrite A4, A5, A6, A7, A8. rewrite sum_opt_snoc, G. destruct (lost w h (px e) (py e) (given e)) eqn:L; rewrite <- G, L; cbn [negb map length]; rewrite ?app_nil_r, ?map_app, ?total_app, ?app_length; cbn [map length total_of fold_right]; unfold total_of; cbn [fold_right add];
        (repeat split; try assumption; try lia; try (f_equal; lra)).
Qed.
Lemma begin_agrees s t s' : begin_test s t = Some s' -> agrees (width (lens (cam s))) (height (lens (cam s))) s' [].
Proof. intro X. apply begin_spec in X. destruct X as (_ & _ & _ & _ & A & B & C & D & E & _ & F & G & H & _). unfold agrees. rewrite A, B, C, D, E, F, H. cbn. repeat split; lia. Qed.
(* at most one result per frame, and frames only go up *)
Definition paced (s : test) : Prop := (first s <= frame (cam s))%Z /\ (0 <= frame (cam s))%Z /\ (processed s + (if queried s then 1 else 0) <= Z.min (frame (cam s)) (last s) - first s)%Z.
Lemma run_paced ks : forall s s', paced s -> run s ks = Some s' -> paced s' /\ first s' = first s /\ last s' = last s /\ total s' = total s.
Proof.
  induction ks as [|k ks IH]; intros s s' P X; cbn [run] in X.
  - injection X as <-. auto.
  - destruct (run1 s k) as [s1|] eqn:E; [| discriminate ]. assert (P1 : paced s1 /\ first s1 = first s /\ last s1 = last s /\ total s1 = total s).
    { destruct P as (P0 & P1 & P2). destruct k as [p t u t' u' ok|a b f hh v bw bh r]; cbn [run1] in E.
      - apply next_spec in E; [| exact P1 ]. destruct E as (A & B & T & _ & D & _ & _ & _ & _ & F & Q & _). split; [| auto ]. unfold paced. rewrite A, B, D. destruct (queried s1).
        + specialize (Q eq_refl). destruct (queried s); repeat split; lia.
        + destruct (queried s); repeat split; lia.
      - apply update_spec in E. destruct E as (Q & e & _ & _ & ->). split; [| auto ]. unfold paced. cbn. rewrite Q in P2. repeat split; lia. }
    destruct P1 as (P1 & A & B & T). apply IH in X; [| exact P1 ]. rewrite A, B, T in X. exact X.
Qed.
Lemma begin_paced s t s' : begin_test s t = Some s' -> (first s <= last s)%Z -> paced s'.
Proof. intros X L. apply begin_spec in X. destruct X as (A & B & _ & Q & _ & D & _ & _ & _ & _ & F & G & _). unfold paced. rewrite A, B, Q, D, F. repeat split; lia. Qed.

(** a target that stays where the camera looks *)
Definition still (s : test) : Prop :=
  let c := cam s in good_view (lens c) = true /\ (width (lens c) <= int_max)%Z /\ (height (lens c) <= int_max)%Z /\ delay_ratio c = 0 /\ comm_delay c = 0 /\ now c * rate c = IZR (first s) /\
  (0 <= first s <= frame c)%Z /\ (first s <= int_max)%Z /\ (last s < count c)%Z.
Lemma still_next s : still s -> (frame (cam s) < last s)%Z -> exists s', next_frame s (Angles (hori (lens (cam s))) (verti (lens (cam s)))) 0 0 0 0 true = Some s' /\ still s' /\ queried s' = true /\
  frame (cam s') = (frame (cam s) + 1)%Z /\ processed s' = processed s /\ first s' = first s /\ last s' = last s /\ lens (cam s') = lens (cam s) /\ total s' = total s.
Proof.
  intros (G & W & H & R0 & D & N & F & M & L) FL. set (c := cam s) in *. pose proof G as G'. apply good_view_spec in G'. destruct G' as (_ & _ & _ & A & B).
  unfold next_frame. fold c. cbn [set]. cbv zeta. rewrite (proj1 (wrap_cases (hori (lens c))) A). cbn [lens with_lens hori verti].
  rewrite (proj2 (ltb_false (verti (lens c)) 0)), (proj2 (ltb_false 180 (verti (lens c)))) by lra. cbn [orb].
  set (d := with_lens _ _ _ _). assert (Dm : motion_delay d = 0).
  { unfold motion_delay, d. cbn. unfold change. cbv zeta. replace (hori (lens c) - hori (lens c)) with 0 by ring. replace (verti (lens c) - verti (lens c)) with 0 by ring.
    rewrite (proj2 (ltb_false 180 0)), (proj2 (leb_false 0 (-180))) by lra. rewrite Rabs_R0. unfold Rdiv. ring. }
  assert (Wd : wait d 0 0 = Some (with_clock (with_frame d (frame c + 1)) (first_tick d) (now c) (overhead d) (0 - first_tick d), true)).
  { unfold wait. replace (count d <=? frame d)%Z with false by (symmetry; apply Z.leb_gt; unfold d; cbn; lia). cbv zeta. rewrite Dm. change (delay_ratio d) with (delay_ratio c). change (comm_delay d) with (comm_delay c). rewrite R0, D.
    change (now d) with (now c). replace (now c + (0 * execution_delay d 0 + 0 + 0)) with (now c) by ring. change (rate d) with (rate c). rewrite N.
    rewrite (to_int_nearest (IZR (first s)) (first s)); [| apply (IZR_le 0 (first s)) in F || (assert (0 <= IZR (first s)) by (apply IZR_le; lia); lra) | apply nearest_int | exact M ].
    change (frame d) with (frame c). rewrite Z.max_r by lia. do 2 f_equal. apply Z.ltb_lt. unfold d. cbn. lia. }
  rewrite Wd. cbn [frame with_clock with_frame andb]. replace (frame c + 1 <? first s)%Z with false by (symmetry; apply Z.ltb_ge; lia). replace (last s <? frame c + 1)%Z with false by (symmetry; apply Z.ltb_ge; lia). cbn [negb andb].
  eexists. split; [ reflexivity |]. assert (Ld : lens d = lens c) by (unfold d; cbn; now destruct (lens c)). unfold still. cbn [cam queried first last total processed get_frame with_clock with_frame lens delay_ratio comm_delay now rate frame count].
  rewrite Ld. repeat split; try assumption; try reflexivity; try lia; try apply F.
Qed.
Lemma still_update s bw bh : still s -> queried s = true -> (0 <= bw < width (lens (cam s)))%Z -> (0 <= bh < height (lens (cam s)))%Z -> exists s',
  update s (width (lens (cam s))) (height (lens (cam s))) (fov (lens (cam s))) (hori (lens (cam s))) (verti (lens (cam s))) bw bh {| rx := (width (lens (cam s)) - bw) / 2; ry := (height (lens (cam s)) - bh) / 2; rw := bw; rh := bh |} = Some s' /\
  still s' /\ processed s' = (processed s + 1)%Z /\ first s' = first s /\ last s' = last s /\ cam s' = cam s /\ total s' = total s.
Proof.
  intros S Q BW BH. pose proof S as (G & W & H & _). unfold update. rewrite Q. cbn [negb]. cbv zeta. pose proof G as G'. apply good_view_spec in G'. destruct G' as (_ & _ & _ & A & B). rewrite (proj2 (good_angles_spec _ _)) by auto. cbn [negb].
  rewrite (centre (lens (cam s)) G W H). replace {| width := width (lens (cam s)); height := height (lens (cam s)); fov := fov (lens (cam s)); hori := hori (lens (cam s)); verti := verti (lens (cam s)) |} with (lens (cam s)) by now destruct (lens (cam s)).
  rewrite (box_same (lens (cam s)) bw bh G W H BW BH). eexists. split; [ reflexivity |]. split; [ exact S |]. auto.
Qed.
Lemma still_run n : forall s, still s -> (frame (cam s) + Z.of_nat n <= last s)%Z -> exists ks s', run s ks = Some s' /\ processed s' = (processed s + Z.of_nat n)%Z /\ total s' = total s.
Proof.
  induction n as [|n IH]; intros s S L.
  - exists [], s. cbn [run]. repeat split; lia.
  - destruct (still_next s S ltac:(lia)) as (s1 & E1 & S1 & Q1 & F1 & P1 & A1 & B1 & L1 & T1).
    pose proof S1 as (G & _). apply good_view_spec in G. destruct (still_update s1 0 0 S1 Q1 ltac:(lia) ltac:(lia)) as (s2 & E2 & S2 & P2 & A2 & B2 & C2 & T2).
    destruct (IH s2 S2 ltac:(rewrite C2; lia)) as (ks & s' & R0 & P & T). eexists (Next _ _ _ _ _ _ :: Result _ _ _ _ _ _ _ _ :: ks), s'. cbn [run run1]. rewrite E1, E2. split; [ exact R0 |]. split; lia.
Qed.
Lemma begin_still s t s' : begin_test s t = Some s' -> good_view (lens (cam s)) = true -> (width (lens (cam s)) <= int_max)%Z -> (height (lens (cam s)) <= int_max)%Z -> delay_ratio (cam s) = 0 -> comm_delay (cam s) = 0 ->
  0 < rate (cam s) -> (first s <= int_max)%Z -> (last s < count (cam s))%Z -> still s' /\ frame (cam s') = first s.
Proof.
  intros X G W H D C R0 M L. pose proof (begin_spec _ _ _ X) as (A & B & _ & _ & _ & _ & _ & _ & _ & _ & F & F2 & LL & CC). split; [| exact F ]. unfold still. cbv zeta. rewrite A, B, F, LL, CC.
  unfold begin_test, begin_playing in X. cbn [set] in X. destruct (_ || _)%bool; [ discriminate |]. injection X as <-. cbn. repeat split; try assumption; try lia. field. lra.
Qed.
