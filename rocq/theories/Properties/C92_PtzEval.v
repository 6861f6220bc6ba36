(* C92: the measures of the virtual PTZ evaluator *)
From Coq Require Import ZArith Reals Bool List Lra Lia.
From Verif Require Import Model.Ptz Model.PtzCamera Model.PtzEval Spec.Ptz Spec.PtzEval Proofs.Ptz Proofs.PtzCamera Proofs.PtzEval.
Import ListNotations.
Open Scope R_scope.

(* the overlap of two boxes is the share of the pixels of both among the pixels of either, or not a number when there are none *)
Theorem C92_overlap a b i u : (0 <= rw a)%Z -> (0 <= rh a)%Z -> (0 <= rw b)%Z -> (0 <= rh b)%Z ->
  has_size (fun p => covers a p /\ covers b p) i -> has_size (fun p => covers a p \/ covers b p) u -> overlap a b = if (u =? 0)%nat then None else Some (INR i / INR u).
Proof.
  intros A1 A2 B1 B2 X Y. destruct (overlap_sizes a b i u A1 A2 B1 B2 X Y) as (-> & _). unfold over. destruct (Req_EM_T (INR u) 0) as [E|E], (Nat.eqb_spec u 0) as [F|F]; try reflexivity.
  - apply (INR_eq u 0) in E. contradiction.
  - subst u. now destruct E.
Qed.
Print Assumptions C92_overlap.
Theorem C92_overlap_bounds a b q : (0 <= rw a)%Z -> (0 <= rh a)%Z -> (0 <= rw b)%Z -> (0 <= rh b)%Z -> overlap a b = Some q -> 0 <= q <= 1.
Proof. exact (overlap_bounds a b q). Qed.
Print Assumptions C92_overlap_bounds.
Theorem C92_overlap_one a b : (0 < rw a)%Z -> (0 < rh a)%Z -> (0 <= rw b)%Z -> (0 <= rh b)%Z -> overlap a b = Some 1 <-> a = b.
Proof. exact (overlap_one a b). Qed.
Print Assumptions C92_overlap_one.

(* in every session the counters and sums tell what was compared: errors and offsets over the frames not counted as lost, overlaps over all frames *)
Theorem C92_sums s t s0 ks s' : begin_test s t = Some s0 -> run s0 ks = Some s' ->
  let w := width (lens (cam s)) in let h := height (lens (cam s)) in let l := history s0 ks in let good e := negb (lost w h (px e) (py e) (given e)) in
  processed s' = Z.of_nat (length l) /\ out_of_view s' = (Z.of_nat (length l) - Z.of_nat (length (filter good l)))%Z /\
  error_sum s' = Some (total_of (map error_of (filter good l))) /\ offset_sum s' = Some (total_of (map (offset_of w h) (filter good l))) /\
  overlap_sum s' = sum_opt (map (fun e => overlap (truth e) (given e)) l).
Proof. intros B X. pose proof (run_agrees _ _ ks s0 [] s' (begin_agrees s t s0 B) X) as (_ & _ & _ & A). exact A. Qed.
Print Assumptions C92_sums.
(* hence the error and the offset are means over the frames not counted as lost *)
Theorem C92_means s t s0 ks s' : begin_test s t = Some s0 -> run s0 ks = Some s' ->
  let w := width (lens (cam s)) in let h := height (lens (cam s)) in let l := filter (fun e => negb (lost w h (px e) (py e) (given e))) (history s0 ks) in
  l <> [] -> avg_error s' = Some (total_of (map error_of l) / INR (length l)) /\ avg_offset s' = Some (total_of (map (offset_of w h) l) / INR (length l)).
Proof.
  intros B X. cbv zeta. intro N. destruct (C92_sums s t s0 ks s' B X) as (P & O1 & E & F & _). cbv zeta in *. set (l := filter _ (history s0 ks)) in *. unfold avg_error, avg_offset, valid_frames, ratio. rewrite P, O1, E, F.
  assert (L : (1 <= length l)%nat) by (destruct l; [ contradiction | cbn; lia ]). replace (Z.max _ 1) with (Z.of_nat (length l)) by lia. rewrite <- INR_IZR_INZ. unfold over. assert (0 < INR (length l)) by (apply lt_0_INR; lia). destruct (Req_EM_T (INR (length l)) 0); [ lra |]. auto.
Qed.
Print Assumptions C92_means.

(* each frame between the first and the last gives at most one result *)
Theorem C92_processed s t s0 ks s' : begin_test s t = Some s0 -> (first s <= last s)%Z -> run s0 ks = Some s' -> (0 <= out_of_view s' <= processed s')%Z /\ (processed s' <= last s - first s)%Z.
Proof.
  intros B L X. pose proof (begin_spec _ _ _ B) as (A1 & A2 & _). destruct (run_paced ks s0 s' (begin_paced s t s0 B L) X) as ((_ & _ & P) & F & G & _). destruct (C92_sums s t s0 ks s' B X) as (Q & R0 & _).
  rewrite F, G, A1, A2 in P. cbv zeta in *. set (l := history s0 ks) in *. match type of R0 with context[filter ?f l] => assert (length (filter f l) <= length l)%nat by (clear; induction l as [|x l IH]; cbn; [ lia | destruct (f x); cbn; lia ]) end.
  destruct (queried s'); lia.
Qed.
Print Assumptions C92_processed.
(* but the ratio of processed frames is taken with one less: whenever the camera can be still, some session gives a ratio over 1, or divides by zero *)
Theorem C92_ratio_refuted s t s0 : begin_test s t = Some s0 -> good_view (lens (cam s)) = true -> (width (lens (cam s)) <= int_max)%Z -> (height (lens (cam s)) <= int_max)%Z ->
  delay_ratio (cam s) = 0 -> comm_delay (cam s) = 0 -> 0 < rate (cam s) -> (last s < count (cam s))%Z -> (first s < last s <= int_max)%Z -> total s = (last s - first s)%Z ->
  exists ks s', run s0 ks = Some s' /\ match processed_ratio s' with Some q => 1 < q | None => True end.
Proof.
  intros B G W H D C R0 L M T. destruct (begin_still s t s0 B G W H D C R0 ltac:(lia) L) as (S & F). pose proof (begin_spec _ _ _ B) as (A1 & A2 & A3 & _ & _ & P0 & _).
  destruct (still_run (Z.to_nat (last s - first s)) s0 S ltac:(rewrite F, A2; lia)) as (ks & s' & X & P & T'). exists ks, s'. split; [ exact X |].
  unfold processed_ratio, ratio, over. destruct (Req_EM_T _ 0) as [|N]; [ exact I |]. rewrite P, P0, T', A3, T in *. rewrite Z2Nat.id by lia. rewrite Z.add_0_l in *. set (k := (last s - first s)%Z) in *.
  assert (0 < IZR (k - 1)). { assert (0 <= IZR (k - 1)) by (apply IZR_le; lia). lra. } apply Rmult_lt_reg_r with (IZR (k - 1)); [ assumption |]. unfold Rdiv. rewrite Rmult_assoc, Rinv_l, Rmult_1_l, Rmult_1_r by assumption. apply IZR_lt. lia.
Qed.
Print Assumptions C92_ratio_refuted.

(* which frames count as lost: right when the target is behind the camera, or its column is beyond neither size and its row within the image *)
Theorem C92_lost w h x y r : (x < w)%Z -> (x < h)%Z -> (y < h)%Z -> (3 <= rw r)%Z -> (3 <= rh r)%Z -> lost w h x y r = false <-> (0 <= x < w)%Z /\ (0 <= y < h)%Z.
Proof. intros. unfold lost. rewrite !orb_false_iff, !Z.ltb_ge. lia. Qed.
Print Assumptions C92_lost.
Theorem C92_behind w h r : (w <= int_max)%Z -> lost w h int_max int_max r = true.
Proof. intro W. unfold lost. rewrite !orb_true_iff, !Z.ltb_lt. lia. Qed.
Print Assumptions C92_behind.
(* a target seen in the right part of an image that is wider than high counts as lost, however good the tracker *)
Theorem C92_right_refuted s a b f h v bw bh r s' x y : update s a b f h v bw bh r = Some s' -> let c := lens (cam s) in
  seen_at (width c) (height c) (fov c) (hori c) (verti c) (forward h v) (IZR x) (IZR y) -> (height c <= x < width c)%Z -> (0 <= y < height c)%Z -> (width c <= int_max)%Z -> (height c <= int_max)%Z ->
  out_of_view s' = (out_of_view s + 1)%Z.
Proof.
  intros X c S Bx By W H. assert (G : good_view c = true /\ good_angles h v = true).
  { unfold update in X. destruct (negb (queried s)); [ discriminate |]. cbv zeta in X. fold c in X. destruct (good_angles h v) eqn:GA; [| discriminate ]. cbn [negb] in X. unfold hv_to_xy in X. rewrite GA in X. destruct (good_view c); [ auto | discriminate ]. }
  destruct G as (G & GA). apply good_angles_spec in GA. apply update_spec in X. destruct X as (_ & e & E & _ & ->). cbn [out_of_view]. unfold compared_now in E. fold c in E. cbv zeta in E.
  rewrite (project_nearest c h v (IZR x) (IZR y) x y G (proj1 GA) (proj2 GA) S (nearest_int x) (nearest_int y) ltac:(lia) ltac:(lia)) in E. injection E as <-. unfold is_lost. fold c. cbn [px py given].
  replace (lost _ _ _ _ _) with true; [ reflexivity |]. symmetry. unfold lost. rewrite !orb_true_iff, !Z.ltb_lt. lia.
Qed.
Print Assumptions C92_right_refuted.
(* a target below the image counts as seen, and its error enters the mean *)
Theorem C92_below_refuted s a b f h v bw bh r s' x y : update s a b f h v bw bh r = Some s' -> let c := lens (cam s) in
  seen_at (width c) (height c) (fov c) (hori c) (verti c) (forward h v) (IZR x) (IZR y) -> (0 <= x < width c)%Z -> (x < height c)%Z -> (height c <= y <= int_max)%Z -> (width c <= int_max)%Z -> (3 <= rw r)%Z -> (3 <= rh r)%Z ->
  out_of_view s' = out_of_view s /\ exists e, error_sum s' = add (error_sum s) (Some e) /\ 0 <= e.
Proof.
  intros X c S Bx Bh By W R1 R2. assert (G : good_view c = true /\ good_angles h v = true).
  { unfold update in X. destruct (negb (queried s)); [ discriminate |]. cbv zeta in X. fold c in X. destruct (good_angles h v) eqn:GA; [| discriminate ]. cbn [negb] in X. unfold hv_to_xy in X. rewrite GA in X. destruct (good_view c); [ auto | discriminate ]. }
  destruct G as (G & GA). apply good_angles_spec in GA. pose proof G as GV. apply good_view_spec in GV. apply update_spec in X. destruct X as (_ & e & E & _ & ->). cbn [out_of_view error_sum]. unfold compared_now in E. fold c in E. cbv zeta in E.
  rewrite (project_nearest c h v (IZR x) (IZR y) x y G (proj1 GA) (proj2 GA) S (nearest_int x) (nearest_int y) ltac:(lia) ltac:(lia)) in E. injection E as <-. unfold is_lost. fold c. cbn [px py given].
  replace (lost _ _ _ _ _) with false; [| symmetry; unfold lost; rewrite !orb_false_iff, !Z.ltb_ge; lia ]. split; [ reflexivity |]. eexists. split; [ reflexivity |]. apply sqrt_pos.
Qed.
Print Assumptions C92_below_refuted.

(* overlaps are summed over all frames but divided by the number of those not lost: a tracker that is always right has a mean over 1 as soon as one of its frames counts as lost *)
Theorem C92_average_refuted s t s0 ks s' : begin_test s t = Some s0 -> run s0 ks = Some s' -> (forall e, In e (history s0 ks) -> overlap (truth e) (given e) = Some 1) -> (2 <= processed s')%Z -> (1 <= out_of_view s')%Z ->
  exists q, avg_overlap s' = Some q /\ 1 < q.
Proof.
  intros B X A P O1. destruct (C92_sums s t s0 ks s' B X) as (Q & _ & _ & _ & V). cbv zeta in *. set (l := history s0 ks) in *.
  assert (V' : overlap_sum s' = Some (IZR (processed s'))).
  { rewrite V, Q, <- INR_IZR_INZ. clear -A. induction l as [|e l IH]; [ reflexivity |]. cbn [map sum_opt fold_right]. rewrite (A e) by now left. unfold sum_opt in IH. rewrite IH by (intros; apply A; now right). cbn [add length]. rewrite S_INR. f_equal. lra. }
  unfold avg_overlap, ratio, valid_frames, over. rewrite V'. assert (0 < IZR (Z.max (processed s' - out_of_view s') 1)) by (apply IZR_lt; lia). destruct (Req_EM_T _ 0); [ lra |]. eexists. split; [ reflexivity |].
  apply Rmult_lt_reg_r with (IZR (Z.max (processed s' - out_of_view s') 1)); [ assumption |]. unfold Rdiv. rewrite Rmult_assoc, Rinv_l, Rmult_1_l, Rmult_1_r by assumption. apply IZR_lt. lia.
Qed.
Print Assumptions C92_average_refuted.
(* one frame with two empty boxes and the mean is not a number *)
Theorem C92_empty_refuted s t s0 ks s' e : begin_test s t = Some s0 -> run s0 ks = Some s' -> In e (history s0 ks) -> area (truth e) = 0%Z -> area (given e) = 0%Z -> area (meet (truth e) (given e)) = 0%Z -> avg_overlap s' = None.
Proof.
  intros B X I0 A1 A2 A3. destruct (C92_sums s t s0 ks s' B X) as (_ & _ & _ & _ & V). cbv zeta in V. unfold avg_overlap, ratio. rewrite V.
  assert (N : overlap (truth e) (given e) = None). { unfold overlap. cbv zeta. rewrite A1, A2, A3. unfold over. destruct (Req_EM_T _ 0) as [|K]; [ reflexivity |]. destruct K. cbn. lra. }
  clear V. induction (history s0 ks) as [|x l IH]; [ destruct I0 |]. cbn [map sum_opt fold_right]. destruct I0 as [->|I0]; [ now rewrite N |]. specialize (IH I0). unfold sum_opt in IH. destruct (fold_right add (Some 0) _); [ discriminate IH || idtac | now destruct (overlap (truth x) (given x)) ].
  exfalso. unfold over, valid_frames in IH. destruct (Req_EM_T _ 0) as [K|K]; [| discriminate ]. assert (0 < IZR (Z.max (processed s' - out_of_view s') 1)) by (apply IZR_lt; lia). lra.
Qed.
Print Assumptions C92_empty_refuted.
(* when a corner of the target is behind the camera the tracker is compared with the box of an earlier frame *)
Theorem C92_stale_refuted s a b f h v bw bh r s' : update s a b f h v bw bh r = Some s' -> bounding_box {| width := a; height := b; fov := f; hori := h; verti := v |} (lens (cam s)) bw bh = Box_false ->
  overlap_sum s' = add (overlap_sum s) (overlap (gt_box s) r) /\ gt_box s' = gt_box s.
Proof.
  intros X F. apply update_spec in X. destruct X as (_ & e & E & G & ->). cbn [overlap_sum gt_box]. unfold compared_now in E. rewrite F in E. cbv zeta in E. destruct (hv_to_xy _ _ _); injection E as <-; auto.
Qed.
Print Assumptions C92_stale_refuted.

(* the frames of a test: with a first frame given they lie in the ground truth *)
Theorem C92_setup total gf gc gl first last f l n : setup total gf gc gl first last = Some (f, l, n) -> (0 <= first)%Z -> f = first /\ (gf <= f < l)%Z /\ l = Z.min last gl /\ n = (l - f)%Z /\ (1 <= n)%Z.
Proof.
  unfold setup. intros X N. destruct (negb _); [ discriminate |]. destruct (total <? gf)%Z; [ discriminate |]. destruct (negb _); [ discriminate |]. cbv zeta in X. replace (first <? 0)%Z with false in X by (symmetry; apply Z.ltb_ge; lia).
  destruct (first <? gf)%Z eqn:A; [ discriminate |]. destruct (_ <=? first)%Z eqn:B; [ discriminate |]. injection X as <- <- <-. apply Z.ltb_ge in A. apply Z.leb_gt in B. destruct (last <? gl)%Z eqn:C; [ apply Z.ltb_lt in C | apply Z.ltb_ge in C ]; lia.
Qed.
Print Assumptions C92_setup.
(* every frame of a test has its entry in the ground truth *)
Theorem C92_entries total gf gc gl first last f l n i : setup total gf gc gl first last = Some (f, l, n) -> (f <= i <= l)%Z -> (0 <= i - gf < gc)%Z.
Proof.
  unfold setup. intros X N. destruct (negb _); [ discriminate |]. destruct (total <? gf)%Z; [ discriminate |]. destruct (negb _) eqn:Q; [ discriminate |]. apply negb_false_iff, Z.eqb_eq in Q. cbv zeta in X.
  destruct (last <? gl)%Z eqn:C; [ apply Z.ltb_lt in C | apply Z.ltb_ge in C ]; (destruct (first <? 0)%Z; [ injection X as <- <- <-; lia |]; destruct (first <? gf)%Z eqn:A; [ discriminate |]; destruct (_ <=? first)%Z eqn:B; [ discriminate |]; injection X as <- <- <-; apply Z.ltb_ge in A; lia).
Qed.
Print Assumptions C92_entries.
(* by default the test starts with the ground truth, and a test that ends before it is accepted, with a negative number of frames *)
Theorem C92_setup_refuted total gf gc gl last : (gf <= total)%Z -> gc = (gl - gf + 1)%Z -> (0 < last < gf)%Z -> (gf <= gl)%Z -> exists n, setup total gf gc gl (-1) last = Some (gf, last, n) /\ (n < 0)%Z.
Proof.
  intros A -> B C. exists (last - gf)%Z. split; [| lia ]. unfold setup. replace ((-1 <? last) && (0 <? last))%Z%bool with true by (symmetry; rewrite andb_true_iff, !Z.ltb_lt; lia). cbn [negb].
  replace (total <? gf)%Z with false by (symmetry; apply Z.ltb_ge; lia). rewrite Z.eqb_refl. cbn [negb]. replace (last <? gl)%Z with true by (symmetry; apply Z.ltb_lt; lia). reflexivity.
Qed.
Print Assumptions C92_setup_refuted.

(* the box given for the first target is where it was cut out, except for odd sizes in even images *)
Theorem C92_init_box c bw bh : good_view c = true -> (width c <= int_max)%Z -> (height c <= int_max)%Z -> (0 <= bw < width c)%Z -> (0 <= bh < height c)%Z ->
  (bounding_box c c bw bh = Box (rx (init_box (width c) (height c) bw bh)) (ry (init_box (width c) (height c) bw bh)) bw bh <->
   ~ (Z.even (width c) = true /\ Z.odd bw = true) /\ ~ (Z.even (height c) = true /\ Z.odd bh = true)).
Proof.
  intros G W H BW BH. rewrite (box_same c bw bh G W H BW BH). cbn [rx ry init_box]. rewrite !Z.quot_div_nonneg by lia.
  assert (K : forall a b, (0 <= b < a)%Z -> ((a - b) / 2 = a / 2 - b / 2)%Z <-> ~ (Z.even a = true /\ Z.odd b = true)).
  { intros a b L. rewrite Z.even_spec, Z.odd_spec. pose proof (Z.div_mod a 2 ltac:(lia)). pose proof (Z.mod_pos_bound a 2 ltac:(lia)). pose proof (Z.div_mod b 2 ltac:(lia)). pose proof (Z.mod_pos_bound b 2 ltac:(lia)). pose proof (Z.div_mod (a - b) 2 ltac:(lia)). pose proof (Z.mod_pos_bound (a - b) 2 ltac:(lia)).
    split.
    - intros E ((i & I0) & (j & J)). lia.
    - intro N. destruct (Z.eq_dec (a mod 2) 0) as [A|A], (Z.eq_dec (b mod 2) 1) as [D|D]; try lia. exfalso. apply N. split; [ exists (a / 2)%Z; lia | exists (b / 2)%Z; lia ]. }
  rewrite <- (K _ _ BW), <- (K _ _ BH). split; [ intro E; injection E as E1 E2; auto | intros (-> & ->); reflexivity ].
Qed.
Print Assumptions C92_init_box.

(* two boxes of 4x4 pixels that share 2x2 *)
Definition ex_box (x y w h : Z) : rect := {| rx := x; ry := y; rw := w; rh := h |}.
Example C92_ex_overlap : overlap (ex_box 0 0 4 4) (ex_box 2 2 4 4) = Some (4 / 28).
Proof. unfold overlap, over. cbn. destruct (Req_EM_T _ 0) as [E|_]; [ lra | f_equal; field ]. Qed.
Example C92_ex_empty : overlap (ex_box 0 0 0 4) (ex_box 2 2 0 0) = None.
Proof. unfold overlap, over. cbn. destruct (Req_EM_T _ 0) as [E|E]; [ reflexivity | lra ]. Qed.
(* VGA: column 500 counts as lost, row 5000 does not *)
Example C92_ex_lost : lost 640 480 500 200 (ex_box 495 195 10 10) = true /\ lost 640 480 300 5000 (ex_box 295 195 10 10) = false.
Proof. split; reflexivity. Qed.
Example C92_ex_init : init_box 640 480 51 40 = ex_box 295 220 51 40 /\ ((640 - 51) / 2 = 294)%Z.
Proof. split; reflexivity. Qed.
(* a still camera, frames 0 to 3 of 100 *)
Definition ex_test : test := {| first := 0; last := 3; total := 3; cam := {| count := 100; rate := 10; frame := 0; lens := {| width := 640; height := 480; fov := 90; hori := 30; verti := 90 |}; hori_speed := 60; verti_speed := 60; delay_ratio := 0;
  comm_delay := 0; hori_change := 0; verti_change := 0; first_tick := 0; now := 0; overhead := 0; begin_time := 0 |}; queried := false; out_of_view := 0; processed := 0; error_sum := None; offset_sum := None; overlap_sum := None; gt_box := ex_box 0 0 0 0 |}.
Example C92_ex_begin : exists s0, begin_test ex_test 7 = Some s0 /\ exists ks s', run s0 ks = Some s' /\ match processed_ratio s' with Some q => 1 < q | None => True end.
Proof.
  assert (X : exists s0, begin_test ex_test 7 = Some s0).
  { unfold begin_test, begin_playing. cbn [set ex_test cam count first]. rewrite (proj2 (ltb_false (IZR (100 - 1)) (IZR 0))), (proj2 (ltb_false (IZR 0) 0)) by (cbn; lra). cbn [orb]. eexists. reflexivity. }
  destruct X as (s0 & X). exists s0. split; [ exact X |]. apply (C92_ratio_refuted ex_test 7 s0 X); try (cbn; unfold int_max; lia); try reflexivity; try (cbn; lra). apply good_view_spec. cbn. repeat split; lra || lia.
Qed.
