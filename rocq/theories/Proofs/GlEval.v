From Coq Require Import ZArith List Bool Lia Permutation.
From Verif Require Import Lib.Grid Model.Metrics Spec.Metrics Spec.MetricsTree Proofs.Metrics Model.GlEval Spec.GlEval.
Import ListNotations.
Open Scope Z_scope.

(** ** one frame *)
Definition bounded (b : Z) (c : counters) : Prop :=
  0 <= nTP c <= b /\ 0 <= nTN c <= b /\ 0 <= nFP c <= b /\ 0 <= nFN c <= b /\ 0 <= nSE c <= b /\ 0 <= nDC c <= b.
Lemma wrap32_small v : 0 <= v < 4294967296 -> wrap32 v = v.
Proof. intro B. unfold wrap32. now apply Z.mod_small. Qed.
Lemma gl_pixel_eq b c i g r : bounded b c -> b + 1 < 4294967296 ->
  gl_pixel c i g r = count_pixel c i g (Some r) /\ bounded (b + 1) (gl_pixel c i g r).
Proof.
  intros (B1 & B2 & B3 & B4 & B5 & B6) Hb. unfold gl_pixel, count_pixel, scored.
  destruct (r =? NEG), (g =? OUT), (g =? UNK), (i =? POS), (g =? POS), (g =? SHD); cbn [negb andb nTP nTN nFP nFN nSE nDC];
    rewrite ?wrap32_small, ?wrap_small by lia; split; try reflexivity; unfold bounded; cbn [nTP nTN nFP nFN nSE nDC]; lia.
Qed.
Definition loads (cl gt roi : mat) (p : Z * Z) : px := (load cl p, load gt p, Some (load roi p)).
Lemma gl_frame_list cl gt roi : forall order b c, bounded b c -> b + Z.of_nat (length order) < 4294967296 ->
  gl_frame cl gt roi order c = count_list c (map (loads cl gt roi) order).
Proof.
  induction order as [|p l IH]; intros b c B L; [ reflexivity |]. cbn [length] in L.
  destruct (gl_pixel_eq b c (load cl p) (load gt p) (load roi p) B) as [E B']; [ lia |].
  unfold gl_frame, count_list in *. cbn [map fold_left]. unfold loads at 2. rewrite <- E. apply (IH (b + 1)); auto. lia.
Qed.
Lemma load_in m p : 0 <= fst p < mrows m -> 0 <= snd p < mcols m -> load m p = at_ m (fst p) (snd p).
Proof. intros A B. unfold load. rewrite (proj2 (Z.leb_le _ _)), (proj2 (Z.ltb_lt _ _)), (proj2 (Z.leb_le _ _)), (proj2 (Z.ltb_lt _ _)) by lia. reflexivity. Qed.
Lemma round_up_ge v k : 0 <= v -> 0 < k -> v <= round_up v k < v + k.
Proof. intros V K. unfold round_up. pose proof (Z.div_mod (v + k - 1) k ltac:(lia)). pose proof (Z.mod_pos_bound (v + k - 1) k K). nia. Qed.
Lemma round_up_exact v k : 0 < k -> (k | v) -> round_up v k = v.
Proof. intros K [q ->]. unfold round_up. replace (q * k + k - 1) with (k - 1 + q * k) by ring. rewrite Z.div_add, Z.div_small by lia. ring. Qed.
Lemma padding_eq h w : padding h w = round_up h 8 * round_up w 12 - h * w.
Proof. unfold padding, round_up. replace (h + 8 - 1) with (h + 7) by ring. replace (w + 12 - 1) with (w + 11) by ring. reflexivity. Qed.
Lemma padding_nonneg h w : 0 < h -> 0 < w -> 0 <= padding h w.
Proof. intros H W. rewrite padding_eq. pose proof (round_up_ge h 8). pose proof (round_up_ge w 12). nia. Qed.
Lemma inv_length h w : 0 < h -> 0 < w -> Z.of_nat (length (invocations h w)) = h * w + padding h w.
Proof.
  intros H W. unfold invocations. pose proof (round_up_ge h 8). pose proof (round_up_ge w 12). rewrite grid_length, padding_eq by lia. ring.
Qed.

(** outside of the frame, the region of interest is zero *)
Lemma count_loads cl gt roi (q : px -> bool) : frame_ok cl (Some gt) (Some roi) -> (forall i g, q (i, g, Some 0) = false) ->
  count q (map (loads cl gt roi) (invocations (mrows cl) (mcols cl))) = count q (pixels cl gt (Some roi)).
Proof.
  intros (R & W & C & Hg & Hr) Q. destruct (Hg gt eq_refl) as (G1 & G2 & _). destruct (Hr roi eq_refl) as (R1 & R2 & _).
  unfold pixels. rewrite !count_map. pose proof (round_up_ge (mrows cl) 8). pose proof (round_up_ge (mcols cl) 12).
  rewrite <- (count_subgrid _ 0 (mrows cl) 0 (mcols cl) (round_up (mrows cl) 8) (round_up (mcols cl) 12)) by lia. unfold invocations.
  apply count_ext_in. intros p I. apply in_grid in I. rewrite !Z.add_0_l.
  destruct ((0 <=? fst p) && (fst p <? mrows cl) && ((0 <=? snd p) && (snd p <? mcols cl))) eqn:E.
  - apply andb_true_iff in E as [E1 E2]. apply andb_true_iff in E1 as [A1 A2]. apply andb_true_iff in E2 as [A3 A4]. apply Z.ltb_lt in A2, A4.
    cbn [andb]. unfold loads, pixel. rewrite !load_in by lia. reflexivity.
  - cbn [andb]. unfold loads. replace (load roi p) with 0; [ apply Q |]. unfold load. rewrite R1, R2. rewrite <- (andb_assoc ((0 <=? fst p) && _)), E. reflexivity.
Qed.
Lemma frame_counts cl gt roi order : frame_ok cl (Some gt) (Some roi) -> Permutation order (invocations (mrows cl) (mcols cl)) ->
  mrows cl * mcols cl + padding (mrows cl) (mcols cl) < 4294967296 ->
  exists d, accumulate_mats zero_counters cl (Some gt) (Some roi) = Some d /\
    gl_frame cl gt roi order zero_counters = accumulate d (Cnt 0 0 0 0 0 (padding (mrows cl) (mcols cl))).
Proof.
  intros F P B. pose proof F as (R & W & _). exists (count_list zero_counters (pixels cl gt (Some roi))). split; [ now apply mats_list |].
  assert (L : Z.of_nat (length order) = mrows cl * mcols cl + padding (mrows cl) (mcols cl)) by (rewrite (Permutation_length P); now apply inv_length).
  rewrite (gl_frame_list _ _ _ _ 0) by (try lia; unfold bounded; cbn; lia).
  rewrite !count_list_ok by apply good_zero.
  assert (PM : Permutation (map (loads cl gt roi) order) (map (loads cl gt roi) (invocations (mrows cl) (mcols cl)))) by now apply Permutation_map.
  rewrite !(count_perm _ _ _ PM).
  pose proof (classes_partition (map (loads cl gt roi) (invocations (mrows cl) (mcols cl)))) as P1. rewrite map_length, inv_length in P1 by auto.
  pose proof (classes_partition (pixels cl gt (Some roi))) as P2. rewrite len_pixels in P2 by auto.
  assert (K : forall i g k, k <> DontCare -> cls k (i, g, Some 0) = false).
  { intros i g k N. unfold cls, classify. cbn [roi_ok Z.eqb negb]. rewrite ?andb_false_r, ?orb_true_r. destruct k; try reflexivity. congruence. }
  rewrite !(count_loads cl gt roi (cls _)) in * by (auto; intros; apply K; congruence). rewrite (count_loads cl gt roi shd) by (auto; intros; reflexivity).
  assert (D : count (cls DontCare) (map (loads cl gt roi) (invocations (mrows cl) (mcols cl))) = count (cls DontCare) (pixels cl gt (Some roi)) + padding (mrows cl) (mcols cl)) by lia.
  rewrite D. unfold accumulate, add_counts. cbn [nTP nTN nFP nFN nSE nDC zero_counters]. rewrite !wrap_l, !Z.add_0_l, !Z.add_0_r. reflexivity.
Qed.

(** ** the sizes of the buffer *)
Lemma halve_between max : 0 < max -> forall fuel cur, max <= cur -> cur < 2 ^ Z.of_nat fuel -> max / 2 <= halve fuel max cur < max /\ halve fuel max cur <= cur.
Proof.
  intro M. induction fuel as [|f IH]; intros cur L B. { cbn in B. lia. }
  cbn [halve]. rewrite (proj2 (Z.leb_le max cur)) by lia. rewrite Nat2Z.inj_succ, Z.pow_succ_r in B by lia.
  pose proof (Z.div_mod cur 2 ltac:(lia)) as D. pose proof (Z.mod_pos_bound cur 2 ltac:(lia)).
  destruct (Z_le_gt_dec max (cur / 2)).
  - destruct (IH (cur / 2)) as [A1 A2]; [ lia | lia |]. lia.
  - assert (E : halve f max (cur / 2) = cur / 2) by (destruct f; cbn [halve]; [ reflexivity | rewrite (proj2 (Z.leb_gt max (cur / 2))) by lia; reflexivity ]).
    rewrite E. assert (max / 2 <= cur / 2) by (apply Z.div_le_mono; lia). lia.
Qed.
Lemma block_ok max frames : 2 * frame_bytes <= max -> 0 < frames ->
  exists b, block_bytes max frames = Some b /\ 0 < b < max /\ (frame_bytes | b) /\ b <= frames * frame_bytes.
Proof.
  unfold frame_bytes. intros M N. unfold block_bytes, frame_bytes. rewrite (proj2 (Z.ltb_lt 24 max)), (proj2 (Z.ltb_lt 0 frames)) by lia. cbn [negb orb].
  destruct (Z.leb_spec max (frames * 24)) as [L|L].
  - eexists; split; [ reflexivity |]. set (tot := frames * 24) in *.
    destruct (halve_between max ltac:(lia) (Z.to_nat (Z.log2 tot + 1)) tot L) as [A1 A2].
    { rewrite Z2Nat.id by (pose proof (Z.log2_nonneg tot); lia). apply Z.log2_spec. lia. }
    set (c := halve _ max tot) in *. assert (24 <= max / 2) by (apply Z.div_le_lower_bound; lia).
    pose proof (Z.div_mod c 24 ltac:(lia)) as D. pose proof (Z.mod_pos_bound c 24 ltac:(lia)).
    split; [ split |]; [ | lia |]. { assert (1 <= c / 24) by (apply Z.div_le_lower_bound; lia). lia. }
    split; [ exists (c / 24); lia | lia ].
  - eexists; split; [ reflexivity |]. split; [ lia |]. split; [ exists frames; reflexivity | lia ].
Qed.

(** ** the rows *)
Definition inv (k total : nat) (fs : list (counters -> counters)) (st : evaluator) : Prop :=
  exists d c j, fs = d ++ c /\ length d = block_at st /\ length c = next_row st /\ (next_row st <= k)%nat /\ (j <= next_row st)%nat /\
    frames_done st = length fs /\ (length fs <= total)%nat /\
    on_card st = map (fun f => f zero_counters) c ++ repeat zero_counters (k - next_row st) /\
    copy st = map (fun f => f zero_counters) d ++ firstn j (map (fun f => f zero_counters) c) ++ repeat zero_counters (total - length d - j).
Lemma skipn_repeat {A} (x : A) n m : skipn n (repeat x m) = repeat x (m - n).
Proof. revert n. induction m as [|m IH]; intros [|n]; cbn; auto. Qed.
Lemma skipn_all_app {A} (l r : list A) n : skipn (length l + n) (l ++ r) = skipn n r.
Proof. rewrite skipn_app, skipn_all2 by lia. cbn [app]. f_equal. lia. Qed.
Lemma write_over (d tl src : list counters) : (length src <= length tl)%nat ->
  write (d ++ tl) (length d) src = Some (d ++ src ++ skipn (length src) tl).
Proof.
  intro L. unfold write. rewrite app_length, (proj2 (Nat.leb_le _ _)) by lia. do 2 f_equal.
  - rewrite firstn_app, Nat.sub_diag, firstn_all, firstn_O, app_nil_r. reflexivity.
  - f_equal. apply skipn_all_app.
Qed.
Lemma skipn_tail (c : list counters) j m n : (j <= length c)%nat -> (length c = m)%nat ->
  skipn m (firstn j c ++ repeat zero_counters n) = repeat zero_counters (n - (m - j)).
Proof. intros J L. rewrite skipn_app, skipn_all2, firstn_length by (rewrite firstn_length; lia). cbn [app]. rewrite skipn_repeat. f_equal. lia. Qed.
Lemma inv_init k total : inv k total [] (gl_init k total).
Proof.
  exists [], [], O. cbn. repeat split; try lia; [ now rewrite Nat.sub_0_r | now rewrite !Nat.sub_0_r ].
Qed.
Lemma inv_row k total fs st f d c j : (next_row st < k)%nat -> (length fs < total)%nat -> fs = d ++ c -> length d = block_at st -> length c = next_row st -> (j <= next_row st)%nat ->
  frames_done st = length fs -> on_card st = map (fun f => f zero_counters) c ++ repeat zero_counters (k - next_row st) ->
  copy st = map (fun f => f zero_counters) d ++ firstn j (map (fun f => f zero_counters) c) ++ repeat zero_counters (total - length d - j) ->
  exists st', (if (next_row st + 1 <=? length (on_card st))%nat
      then Some (Ev (firstn (next_row st) (on_card st) ++ f (nth (next_row st) (on_card st) zero_counters) :: skipn (next_row st + 1) (on_card st))
                    (next_row st + 1) (block_at st) (copy st) (frames_done st + 1))
      else None) = Some st' /\ inv k total (fs ++ [f]) st'.
Proof.
  intros K T E D C J Fd Oc Cp. assert (Lk : length (on_card st) = k) by (rewrite Oc, app_length, map_length, repeat_length; lia). rewrite Lk, (proj2 (Nat.leb_le (next_row st + 1) k)) by lia.
  eexists; split; [ reflexivity |]. exists d, (c ++ [f]), j. cbn [on_card next_row block_at copy frames_done].
  assert (Lm : length (map (fun f : counters -> counters => f zero_counters) c) = next_row st) by now rewrite map_length.
  rewrite !app_length in *. cbn [length]. repeat split; try lia.
  - now rewrite E, app_assoc.
  - rewrite Oc, map_app. cbn [map].
    assert (Kn : (k - next_row st = S (k - (next_row st + 1)))%nat) by lia. rewrite Kn. cbn [repeat].
    rewrite <- Lm. rewrite firstn_app, Nat.sub_diag, firstn_all, firstn_O, app_nil_r, app_nth2, Nat.sub_diag by lia.
    rewrite skipn_all_app. cbn [nth skipn]. rewrite <- app_assoc. reflexivity.
  - rewrite Cp, map_app, firstn_app. replace (j - length (map (fun f => f zero_counters) c))%nat with O by lia. rewrite firstn_O, app_nil_r. reflexivity.
Qed.
Lemma inv_frame k total fs st f : (0 < k)%nat -> inv k total fs st -> (length fs < total)%nat ->
  exists st', gl_apply k total st f = Some st' /\ inv k total (fs ++ [f]) st'.
Proof.
  intros K (d & c & j & E & D & C & N & J & Fd & T & Oc & Cp) L. unfold gl_apply. rewrite Fd, (proj2 (Nat.leb_gt _ _)) by lia.
  destruct (Nat.ltb_spec k (next_row st + 1)) as [Full|Room].
  - assert (Ek : next_row st = k) by lia. rewrite Ek, Nat.sub_diag in Oc. cbn [repeat] in Oc. rewrite app_nil_r in Oc. rewrite Cp, Oc.
    assert (Ld : block_at st = length (map (fun f : counters -> counters => f zero_counters) d)) by (rewrite map_length; lia). rewrite Ld.
    assert (Lfs : length fs = (length d + length c)%nat) by (rewrite E; apply app_length).
    rewrite write_over by (rewrite app_length, firstn_length, map_length, repeat_length; lia).
    rewrite (skipn_tail _ _ (length (map (fun f : counters -> counters => f zero_counters) c))) by (rewrite ?map_length; lia). rewrite map_length.
    eapply (inv_row k total fs (Ev _ _ _ _ _) f (d ++ c) [] 0); cbn [on_card next_row block_at copy frames_done length]; try lia.
    + now rewrite app_nil_r.
    + rewrite app_length. lia.
    + now rewrite Nat.sub_0_r.
    + rewrite map_app, <- app_assoc. cbn [firstn map app]. do 3 f_equal. rewrite app_length, map_length. lia.
  - eapply inv_row; eauto. lia.
Qed.
Lemma inv_full k total fs st f : inv k total fs st -> (total <= length fs)%nat -> gl_apply k total st f = None.
Proof. intros (d & c & j & E & D & C & N & J & Fd & T & Oc & Cp) L. unfold gl_apply. rewrite Fd, (proj2 (Nat.leb_le _ _)) by lia. reflexivity. Qed.
Lemma inv_fetch k total fs st : inv k total fs st ->
  exists st', gl_fetch st = Some st' /\ inv k total fs st' /\ copy st' = map (fun f => f zero_counters) fs ++ repeat zero_counters (total - length fs).
Proof.
  intros I. pose proof I as (d & c & j & E & D & C & N & J & Fd & T & Oc & Cp). unfold gl_fetch.
  assert (Lfs : length fs = (length d + length c)%nat) by (rewrite E; apply app_length).
  destruct (next_row st) as [|n] eqn:En.
  - exists st. split; [ reflexivity |]. split; [ exact I |]. destruct c; [| discriminate ]. assert (j = O) by lia. subst j. rewrite Cp, E, app_nil_r. cbn [firstn map app]. do 2 f_equal. lia.
  - rewrite Oc, firstn_app, map_length, C, Nat.sub_diag, firstn_O, app_nil_r, firstn_all2 by (rewrite map_length; lia).
    assert (Ld : block_at st = length (map (fun f : counters -> counters => f zero_counters) d)) by (rewrite map_length; lia). rewrite Cp, Ld.
    rewrite write_over by (rewrite app_length, firstn_length, map_length, repeat_length; lia).
    rewrite (skipn_tail _ _ (length (map (fun f : counters -> counters => f zero_counters) c))) by (rewrite ?map_length; lia). rewrite map_length.
    eexists; split; [ reflexivity |]. split.
    + exists d, c, (S n). cbn [on_card next_row block_at copy frames_done]. repeat split; auto; try lia.
      rewrite firstn_all2 by (rewrite map_length; lia). do 3 f_equal. rewrite map_length. lia.
    + cbn [copy]. rewrite E, map_app, <- app_assoc. do 3 f_equal. rewrite app_length, map_length. lia.
Qed.
Lemma run_none k total l : fold_left (gl_op k total) l None = None.
Proof. induction l; auto. Qed.
Lemma run_inv k total : (0 < k)%nat -> forall l fs st, inv k total fs st ->
  ((length (fs ++ frames_of l) <= total)%nat -> exists st', fold_left (gl_op k total) l (Some st) = Some st' /\ inv k total (fs ++ frames_of l) st') /\
  ((total < length (fs ++ frames_of l))%nat -> fold_left (gl_op k total) l (Some st) = None).
Proof.
  intro K. induction l as [|x l IH]; intros fs st I.
  - cbn [frames_of flat_map fold_left]. rewrite app_nil_r. split; [ eauto |]. destruct I as (d & c & j & E & D & C & N & J & Fd & T & Oc & Cp). lia.
  - destruct x as [f| |]; cbn [fold_left gl_op].
    + change (frames_of (Frame f :: l)) with ([f] ++ frames_of l). rewrite app_assoc.
      destruct (Nat.lt_ge_cases (length fs) total) as [L|L].
      * destruct (inv_frame k total fs st f K I L) as (st' & E & I'). rewrite E. apply IH. exact I'.
      * rewrite (inv_full k total fs st f I L), run_none. split; [| reflexivity ]. rewrite !app_length. cbn [length]. lia.
    + change (frames_of (Fetch :: l)) with (frames_of l). destruct (inv_fetch k total fs st I) as (st' & E & I' & _). rewrite E. apply IH. exact I'.
    + change (frames_of (Reset :: l)) with (frames_of l). apply IH. exact I.
Qed.
Theorem run_rows k total l : (0 < k)%nat ->
  ((length (frames_of l) <= total)%nat -> exists st, gl_run k total (l ++ [Fetch]) = Some st /\
     copy st = map (fun f => f zero_counters) (frames_of l) ++ repeat zero_counters (total - length (frames_of l))) /\
  ((total < length (frames_of l))%nat -> gl_run k total l = None).
Proof.
  intro K. destruct (run_inv k total K l [] (gl_init k total) (inv_init k total)) as [A B]. cbn [app] in *. split; [| exact B ].
  intro L. destruct (A L) as (st & E & I). unfold gl_run. rewrite fold_left_app, E. cbn [fold_left gl_op]. destruct (inv_fetch k total _ st I) as (st' & E' & _ & C). eauto.
Qed.

(** ** totals *)
Lemma accumulate_zero c : good c -> accumulate c zero_counters = c.
Proof. intros (G1 & G2 & G3 & G4 & G5 & G6). unfold accumulate, zero_counters. cbn [nTP nTN nFP nFN nSE nDC]. rewrite !Z.add_0_r, !wrap_small by auto. now destruct c. Qed.
Lemma sum_zeros n c : good c -> fold_left accumulate (repeat zero_counters n) c = c.
Proof. intro G. induction n as [|n IH]; [ reflexivity |]. cbn [repeat fold_left]. now rewrite accumulate_zero. Qed.
Definition extra (v : Z) : counters := Cnt 0 0 0 0 0 v.
Lemma extra_add a b c : accumulate (accumulate c (extra a)) (extra b) = accumulate c (extra (a + b)).
Proof. unfold accumulate, extra. cbn [nTP nTN nFP nFN nSE nDC]. rewrite !wrap_l. f_equal; f_equal; lia. Qed.
Theorem frames_total h w roi : forall l, Forall (input_ok h w roi) l -> h * w + padding h w < 4294967296 -> forall c, good c ->
  exists d, accumulate_frames c (map (as_frame roi) l) = Some d /\ good d /\ forall e, 0 <= e ->
    fold_left accumulate (map (fun x => gl_frame (classif x) (truth x) roi (order x) zero_counters) l) (accumulate c (extra e)) =
    accumulate d (extra (e + Z.of_nat (length l) * padding h w)).
Proof.
  induction l as [|x l IH]; intros F B c G.
  - exists c. split; [ reflexivity |]. split; [ exact G |]. intros e _. cbn [map fold_left length]. now rewrite Z.mul_0_l, Z.add_0_r.
  - apply Forall_cons_iff in F as [(Hr & Hc & Fr & P) F]. rewrite <- Hr, <- Hc in P.
    destruct (frame_counts (classif x) (truth x) roi (order x) Fr P) as (d & E1 & E2); [ now rewrite Hr, Hc |]. rewrite Hr, Hc in E2.
    destruct (IH F B (accumulate c d) (accumulate_good _ _)) as (t & T1 & T2 & T3). exists t. split.
    { cbn [map]. unfold accumulate_frames. cbn [fold_left]. unfold as_frame at 2. rewrite (mats_additive c) by auto. rewrite E1. exact T1. }
    split; [ exact T2 |]. intros e He. cbn [map fold_left]. rewrite E2.
    assert (Q : accumulate (accumulate c (extra e)) (accumulate d (Cnt 0 0 0 0 0 (padding h w))) = accumulate (accumulate c d) (extra (e + padding h w))).
    { change (Cnt 0 0 0 0 0 (padding h w)) with (extra (padding h w)). rewrite <- accumulate_assoc. rewrite (accumulate_assoc c (extra e) d), (accumulate_comm (extra e) d), <- accumulate_assoc. apply extra_add. }
    rewrite Q, T3.
    + do 2 f_equal. cbn [length]. lia.
    + assert (0 < h /\ 0 < w) as [? ?] by (destruct Fr as (? & ? & _); lia). pose proof (padding_nonneg h w). lia.
Qed.
Lemma frames_of_map roi l : frames_of (map (as_op roi) l) = map (fun x => gl_frame (classif x) (truth x) roi (order x)) l.
Proof. induction l as [|x l IH]; [ reflexivity |]. cbn [map]. unfold frames_of in *. cbn [flat_map]. rewrite IH. reflexivity. Qed.
Theorem metrics_total max frames h w roi l ops : 2 * frame_bytes <= max -> h * w + padding h w < 4294967296 ->
  Forall (input_ok h w roi) l -> Z.of_nat (length l) <= frames -> 0 < frames -> frames_of ops = frames_of (map (as_op roi) l) ->
  exists d, accumulate_frames zero_counters (map (as_frame roi) l) = Some d /\
    gl_metrics max frames ops = Some (accumulate d (Cnt 0 0 0 0 0 (Z.of_nat (length l) * padding h w))).
Proof.
  intros M B F L N O. destruct (block_ok max frames M N) as (b & Eb & Hb & [q Dq] & _).
  destruct (frames_total h w roi l F B zero_counters good_zero) as (d & E1 & Gd & E2). exists d. split; [ exact E1 |].
  unfold gl_metrics. rewrite Eb.
  assert (K : (0 < Z.to_nat (b / frame_bytes))%nat). { rewrite Dq, Z.div_mul by (unfold frame_bytes; lia). unfold frame_bytes in *. lia. }
  destruct (run_rows (Z.to_nat (b / frame_bytes)) (Z.to_nat frames) ops K) as [R _].
  rewrite O, frames_of_map in R. rewrite map_length in R. destruct R as (st & R & C); [ lia |]. rewrite R. f_equal. unfold gl_sum. rewrite C, fold_left_app, map_map.
  specialize (E2 0 ltac:(lia)). change (extra 0) with zero_counters in E2. rewrite (accumulate_zero _ good_zero) in E2.
  transitivity (fold_left accumulate (repeat zero_counters (Z.to_nat frames - length l)) (accumulate d (extra (Z.of_nat (length l) * padding h w)))).
  - f_equal. exact E2.
  - apply sum_zeros. apply accumulate_good.
Qed.
Theorem metrics_over max frames ops : 2 * frame_bytes <= max -> 0 < frames < Z.of_nat (length (frames_of ops)) -> gl_metrics max frames ops = None.
Proof.
  intros M N. destruct (block_ok max frames M) as (b & Eb & Hb & [q Dq] & _); [ lia |]. unfold gl_metrics. rewrite Eb.
  assert (K : (0 < Z.to_nat (b / frame_bytes))%nat). { rewrite Dq, Z.div_mul by (unfold frame_bytes; lia). unfold frame_bytes in *. lia. }
  destruct (run_rows (Z.to_nat (b / frame_bytes)) (Z.to_nat frames) (ops ++ [Fetch]) K) as [_ R]. rewrite R; [ reflexivity |].
  unfold frames_of in *. rewrite flat_map_app, app_length. cbn. lia.
Qed.
Theorem padding_zero h w : 0 < h -> 0 < w -> padding h w = 0 <-> (8 | h) /\ (12 | w).
Proof.
  intros H W. rewrite padding_eq. pose proof (round_up_ge h 8). pose proof (round_up_ge w 12). split.
  - intro E. assert (round_up h 8 = h /\ round_up w 12 = w) as [E1 E2] by nia. unfold round_up in E1, E2. split.
    + exists ((h + 8 - 1) / 8). lia.
    + exists ((w + 12 - 1) / 12). lia.
  - intros [A B]. rewrite !round_up_exact by (auto; lia). ring.
Qed.
(** the validation against the processor's counters *)
Theorem validated_iff d h w n : good d -> 0 < h -> 0 < w -> 0 <= n -> n * padding h w < 18446744073709551616 ->
  validated d (accumulate d (Cnt 0 0 0 0 0 (n * padding h w))) = true <-> n = 0 \/ (8 | h) /\ (12 | w).
Proof.
  intros (G1 & G2 & G3 & G4 & G5 & G6) H W N B. unfold u64 in *. unfold validated. rewrite equal_iff. unfold accumulate. cbn [nTP nTN nFP nFN nSE nDC].
  rewrite !Z.add_0_r, (wrap_small (nTP d)), (wrap_small (nTN d)), (wrap_small (nFP d)), (wrap_small (nFN d)), (wrap_small (nSE d)) by auto.
  rewrite <- (padding_zero h w) by auto. pose proof (padding_nonneg h w H W). split.
  - intros (_ & _ & _ & _ & _ & E). unfold wrap in E.
    pose proof (Z.div_mod (nDC d + n * padding h w) 18446744073709551616 ltac:(lia)) as D.
    assert (n * padding h w = 18446744073709551616 * ((nDC d + n * padding h w) / 18446744073709551616)) by lia.
    assert (0 <= n * padding h w) by nia. assert ((nDC d + n * padding h w) / 18446744073709551616 = 0) by lia. nia.
  - intros E. assert (n * padding h w = 0) as -> by nia. rewrite Z.add_0_r, wrap_small by auto. repeat split.
Qed.
(** ** colours *)
Theorem colours_near i g r : i = 0 \/ i = 255 ->
  let '(b, gr, rd) := gl_colour i g r in let '(b', gr', rd') := colour i g (Some r) in
  Z.abs (b - b') <= 1 /\ Z.abs (gr - gr') <= 1 /\ Z.abs (rd - rd') <= 1.
Proof.
  intros [-> | ->]; unfold gl_colour, colour, scored, POS, NEG, OUT, UNK, SHD; cbn [Z.eqb Pos.eqb];
    destruct (r =? 0), (g =? 85), (g =? 170), (g =? 255), (g =? 0), (g =? 50); cbn; lia.
Qed.
