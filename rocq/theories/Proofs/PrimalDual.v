(* The duals stay tight, and the problem handed to the solver measures the change of the energy. *)
From Coq Require Import ZArith List Bool Lia Permutation.
From Verif Require Import Lib.Grid Spec.FusionTerms Model.FusionTerms Model.StereoMoves Proofs.StereoMoves Proofs.StereoEnergy Model.PrimalDual Spec.PrimalDual Proofs.GrayCode.
Import ListNotations.
Local Open Scope Z_scope.

Lemma numbered_cons {A} k (c : A) cs : numbered k (c :: cs) = (k, c) :: numbered (k + 1) cs.
Proof. unfold numbered. cbn [length]. rewrite zseq_S. reflexivity. Qed.
Lemma numbered_app {A} (cs ds : list A) : forall k, numbered k (cs ++ ds) = numbered k cs ++ numbered (k + Z.of_nat (length cs)) ds.
Proof. induction cs as [|c cs IH]; intro k; cbn [app length]; [ cbn; f_equal; lia |]. rewrite !numbered_cons, IH. cbn [app]. do 3 f_equal. lia. Qed.
Lemma in_numbered {A} (cs : list A) r c : forall k, In (r, c) (numbered k cs) <-> k <= r /\ nth_error cs (Z.to_nat (r - k)) = Some c.
Proof.
  induction cs as [|a cs IH]; intro k.
  - cbn. split; [ tauto |]. intros [_ H]. destruct (Z.to_nat (r - k)); discriminate.
  - rewrite numbered_cons. cbn [In]. rewrite IH. split.
    + intros [E|[H1 H2]]; [ inversion E; subst; split; [ lia | now rewrite Z.sub_diag ] |]. split; [ lia |]. replace (Z.to_nat (r - k)) with (S (Z.to_nat (r - (k + 1)))) by lia. exact H2.
    + intros [H1 H2]. destruct (Z.eq_dec r k) as [->|N]; [ left; rewrite Z.sub_diag in H2; cbn in H2; congruence |]. right. split; [ lia |]. replace (Z.to_nat (r - k)) with (S (Z.to_nat (r - (k + 1)))) in H2 by lia. exact H2.
Qed.
Lemma numbered_rows {A} (cs : list A) : forall k, map fst (numbered k cs) = zseq k (length cs).
Proof. induction cs as [|c cs IH]; intro k; [ reflexivity |]. rewrite numbered_cons. cbn [map length fst]. now rewrite IH, zseq_S. Qed.
Lemma numbered_snd {A} (cs : list A) : forall k, map snd (numbered k cs) = cs.
Proof. induction cs as [|c cs IH]; intro k; [ reflexivity |]. rewrite numbered_cons. cbn [map snd]. now rewrite IH. Qed.
Lemma total_app l m : total (l ++ m) = total l + total m.
Proof. induction l as [|a l IH]; cbn [app]; [ cbn; lia |]. rewrite !total_cons, IH. lia. Qed.
Lemma total_perm l m : Permutation l m -> total l = total m.
Proof. induction 1; rewrite ?total_cons; lia. Qed.
Lemma total_one {A} (F G : Z * A -> Z) L a X : NoDup (map fst L) -> In a L -> (forall b, In b L -> fst b <> fst a -> G b = F b) -> G a = F a + X -> total (map G L) = total (map F L) + X.
Proof.
  induction L as [|b L IH]; intros N I O E; [ destruct I |]. cbn [map] in *. rewrite !total_cons. inversion N; subst. destruct I as [->|I].
  - rewrite E. assert (total (map G L) = total (map F L)); [| lia ]. apply total_ext. intros b J. apply O; [ now right |]. intro Q. apply H1. rewrite <- Q. now apply in_map.
  - rewrite IH; [| assumption | assumption | intros; apply O; [ now right | assumption ] | assumption ]. rewrite O; [ lia | now left |]. intro Q. apply H1. rewrite Q. now apply in_map.
Qed.

Section Graph.
Variable g : graph.

(* what a row of bumps does *)
Definition raised (c : clique) (r : Z) (lab delta : Z -> Z) (m : Z) (st st' : duals) : Prop :=
  (forall r' k, dual st' r' k = dual st r' k + total (map (fun d => if (r' =? r) && (k =? column g d (lab d)) then delta d else 0) (zrange 0 m))) /\
  (forall i l, height st' i l = height st i l + total (map (fun d => if (i =? node_at c d) && (l =? lab d) then delta d else 0) (zrange 0 m))) /\ seen st' = seen st.
Definition bump (c : clique) (r : Z) (lab delta : Z -> Z) (st st' : duals) (d : Z) : Prop :=
  (forall r' k, dual st' r' k = dual st r' k + (if (r' =? r) && (k =? column g d (lab d)) then delta d else 0)) /\
  (forall i l, height st' i l = height st i l + (if (i =? node_at c d) && (l =? lab d) then delta d else 0)) /\ seen st' = seen st.
Lemma column_inj d l e m : 0 <= l < nlab g -> 0 <= m < nlab g -> column g d l = column g e m -> d = e /\ l = m.
Proof. unfold column. intros Hl Hm E. assert (d = e) by nia. subst. split; [ reflexivity | lia ]. Qed.

Lemma fold_raised c r lab delta step st0 n : (forall d, 0 <= d < n -> 0 <= lab d < nlab g) ->
  (forall st d, 0 <= d < n -> dual st r (column g d (lab d)) = dual st0 r (column g d (lab d)) -> seen st = seen st0 -> bump c r lab delta st (step st d) d) ->
  0 <= n -> raised c r lab delta n st0 (fold_left step (zrange 0 n) st0).
Proof.
  intros L B Hn. assert (G : forall m, 0 <= m -> m <= n -> raised c r lab delta m st0 (fold_left step (zrange 0 m) st0)); [| apply G; lia ].
  intros m Hm. pattern m. apply natlike_ind; [ | | exact Hm ]; clear m Hm.
  - intros _. split; [| split; [| reflexivity ] ]; intros; cbn; lia.
  - intros m Hm IH Le. specialize (IH ltac:(lia)). rewrite zrange_snoc, fold_left_app by exact Hm. cbn [fold_left]. rewrite Z.add_0_l. set (st := fold_left step (zrange 0 m) st0) in *. destruct IH as (I1 & I2 & I3).
    destruct (B st m) as (B1 & B2 & B3); [ lia | | exact I3 |].
    + rewrite I1. enough (total (map (fun d => if (r =? r) && (column g m (lab m) =? column g d (lab d)) then delta d else 0) (zrange 0 m)) = 0) by lia.
      transitivity (total (map (fun _ : Z => 0) (zrange 0 m))); [| apply total_zero ]. apply total_ext. intros d Id. apply in_zrange in Id. destruct ((r =? r) && (column g m (lab m) =? column g d (lab d))) eqn:E; [| reflexivity ]. apply andb_true_iff in E. destruct E as [_ E]. apply Z.eqb_eq, column_inj in E; [ lia | apply L; lia | apply L; lia ].
    + split; [| split ].
      * intros r' k. rewrite B1, I1, zrange_snoc, map_app, total_app by exact Hm. cbn [map]. rewrite total_cons, Z.add_0_l. change (total []) with 0. lia.
      * intros i l. rewrite B2, I2, zrange_snoc, map_app, total_app by exact Hm. cbn [map]. rewrite total_cons, Z.add_0_l. change (total []) with 0. lia.
      * congruence.
Qed.
Lemma raised_here c r lab delta n st st' d l : raised c r lab delta n st st' -> (forall d, 0 <= d < n -> 0 <= lab d < nlab g) -> 0 <= d < n -> 0 <= l < nlab g ->
  dual st' r (column g d l) = dual st r (column g d l) + (if l =? lab d then delta d else 0).
Proof.
  intros (R & _) L Hd Hl. rewrite R. f_equal. transitivity (total (map (fun e => if d =? e then (if l =? lab e then delta e else 0) else 0) (zrange 0 n))); [| apply (total_pick (fun e => if l =? lab e then delta e else 0) d _ (nodup_zseq _ _)); apply in_zrange; lia ].
  apply total_ext. intros e Ie. apply in_zrange in Ie. rewrite Z.eqb_refl. cbn [andb]. destruct (column g d l =? column g e (lab e)) eqn:E.
  - apply Z.eqb_eq, column_inj in E; [| exact Hl | apply L; lia ]. destruct E as [-> ->]. now rewrite !Z.eqb_refl.
  - destruct (d =? e) eqn:Q; [| reflexivity ]. apply Z.eqb_eq in Q. subst e. destruct (l =? lab d) eqn:Q; [| reflexivity ]. apply Z.eqb_eq in Q. subst l. rewrite Z.eqb_refl in E. discriminate.
Qed.
Lemma raised_else c r lab delta n st st' r' k : raised c r lab delta n st st' -> r' <> r -> dual st' r' k = dual st r' k.
Proof. intros (R & _) N. rewrite R. replace (r' =? r) with false by lia. cbn [andb]. rewrite total_zero. lia. Qed.

(* the duals of a node, row by row *)
Definition row_sum (st : duals) (i l : Z) (rc : Z * clique) : Z := total (map (fun d => if node_at (snd rc) d =? i then dual st (fst rc) (column g d l) else 0) (zrange 0 (csize (snd rc)))).
Definition row_now (st : duals) (x : Z -> Z) (rc : Z * clique) : Z := total (map (fun d => dual st (fst rc) (column g d (x (node_at (snd rc) d)))) (zrange 0 (csize (snd rc)))).
Lemma csize_nonneg c : 0 <= csize c. Proof. unfold csize. lia. Qed.
Lemma raised_row c r lab delta st st' i l : raised c r lab delta (csize c) st st' -> (forall d, 0 <= d < csize c -> 0 <= lab d < nlab g) -> 0 <= l < nlab g ->
  row_sum st' i l (r, c) = row_sum st i l (r, c) + total (map (fun d => if (i =? node_at c d) && (l =? lab d) then delta d else 0) (zrange 0 (csize c))).
Proof.
  intros R L Hl. unfold row_sum. cbn [fst snd]. rewrite <- total_add. apply total_ext. intros d Id. apply in_zrange in Id. rewrite (Z.eqb_sym i). destruct (node_at c d =? i); cbn [andb]; [| lia ]. apply (raised_here c r lab delta (csize c)); [ exact R | exact L | lia | lia ].
Qed.
Lemma raised_other c r lab delta n st st' i l rc : raised c r lab delta n st st' -> fst rc <> r -> row_sum st' i l rc = row_sum st i l rc.
Proof. intros R N. unfold row_sum. apply total_ext. intros d _. destruct (node_at (snd rc) d =? i); [| reflexivity ]. apply (raised_else c r lab delta n st st' _ _ R N). Qed.

Lemma node_at_in c d : 0 <= d < csize c -> In (node_at c d) (cnodes c).
Proof. unfold csize, node_at. intro H. apply nth_In. lia. Qed.
Lemma map_nth_seq (l : list Z) e : map (fun i => nth i l e) (seq 0 (length l)) = l.
Proof. induction l as [|a l IH]; [ reflexivity |]. cbn [length seq map nth]. f_equal. rewrite <- seq_shift, map_map. exact IH. Qed.
Lemma map_node_at (y : Z -> Z) c : map (fun d => y (node_at c d)) (zrange 0 (csize c)) = map y (cnodes c).
Proof.
  rewrite <- (map_map (node_at c) y). f_equal. unfold zrange, csize, zseq. rewrite Nat2Z.id, map_map. rewrite <- (map_nth_seq (cnodes c) (-1)) at 2. apply map_ext. intro i. unfold node_at. f_equal. lia.
Qed.

(* any list of the incidences of a node gives the same sum *)
Lemma numbered_nodup {A} k (cs : list A) : NoDup (map fst (numbered k cs)).
Proof. rewrite numbered_rows. apply nodup_zseq. Qed.
Definition inc (L : list (Z * clique)) (i : Z) : list (Z * Z) := flat_map (fun rc => map (fun d => (fst rc, d)) (filter (fun d => node_at (snd rc) d =? i) (zrange 0 (csize (snd rc))))) L.
Lemma in_inc L i r d : In (r, d) (inc L i) <-> exists c, In (r, c) L /\ 0 <= d < csize c /\ node_at c d = i.
Proof.
  unfold inc. rewrite in_flat_map. split.
  - intros ([r' c] & I1 & I2). cbn [fst snd] in I2. apply in_map_iff in I2. destruct I2 as (e & E & F). inversion E; subst. apply filter_In in F. destruct F as [F1 F2]. apply in_zrange in F1. exists c. split; [ exact I1 |]. split; [ lia | now apply Z.eqb_eq ].
  - intros (c & I1 & H & E). exists (r, c). split; [ exact I1 |]. cbn [fst snd]. apply in_map_iff. exists d. split; [ reflexivity |]. apply filter_In. split; [ apply in_zrange; lia | now apply Z.eqb_eq ].
Qed.
Lemma nodup_inc L i : NoDup (map fst L) -> NoDup (inc L i).
Proof.
  induction L as [|[r c] L IH]; intro N; [ constructor |]. inversion N; subst. unfold inc. cbn [flat_map fst snd]. fold (inc L i). set (A := map _ _).
  assert (NA : NoDup A). { unfold A. apply FinFun.Injective_map_NoDup; [ intros a b E; now inversion E | apply NoDup_filter, nodup_zseq ]. }
  assert (D : forall p, In p A -> ~ In p (inc L i)). { intros p Hp. unfold A in Hp. apply in_map_iff in Hp. destruct Hp as (d & <- & _). intro Q. apply in_inc in Q. destruct Q as (c' & Q & _). apply H1. change r with (fst (r, c')). now apply in_map. }
  specialize (IH H2). clear N H1 H2. clearbody A. induction NA as [|a A Na _ IHA]; [ exact IH |]. cbn [app]. constructor; [ rewrite in_app_iff; intros [Q|Q]; [ tauto | apply (D a); [ now left | exact Q ] ] | apply IHA; intros p Hp; apply D; now right ].
Qed.
Lemma total_inc (f : Z -> Z -> Z) L i : total (map (fun rd => f (fst rd) (snd rd)) (inc L i)) = total (map (fun rc => total (map (fun d => if node_at (snd rc) d =? i then f (fst rc) d else 0) (zrange 0 (csize (snd rc))))) L).
Proof. induction L as [|[r c] L IH]; [ reflexivity |]. unfold inc. cbn [flat_map]. fold (inc L i). rewrite map_app, total_app, IH. cbn [map]. rewrite total_cons. f_equal. rewrite map_map. cbn [fst snd]. now rewrite (total_filter (fun d => node_at c d =? i) (fun d => f r d)). Qed.
Notation rows := (numbered 0 (all_cliques g)).
Lemma in_rows r c : In (r, c) rows <-> 0 <= r /\ nth_error (all_cliques g) (Z.to_nat r) = Some c.
Proof. rewrite in_numbered, Z.sub_0_r. reflexivity. Qed.
Lemma in_rows_clique r c : In (r, c) rows -> In c (all_cliques g).
Proof. intro H. apply in_rows in H. destruct H as [_ H]. now apply nth_error_In in H. Qed.
Lemma inc_incident i r d : In (r, d) (inc rows i) <-> incident g i r d.
Proof.
  rewrite in_inc. unfold incident. split; intros (c & H); exists c.
  - destruct H as (H & K). apply in_rows in H. tauto.
  - split; [ apply in_rows; tauto | tauto ].
Qed.
Lemma incidence_sum (f : Z -> Z -> Z) i P : NoDup P -> (forall r d, In (r, d) P <-> incident g i r d) ->
  total (map (fun rd => f (fst rd) (snd rd)) P) = total (map (fun rc => total (map (fun d => if node_at (snd rc) d =? i then f (fst rc) d else 0) (zrange 0 (csize (snd rc))))) rows).
Proof.
  intros N E. rewrite <- total_inc. apply total_perm, Permutation_map, NoDup_Permutation; [ exact N | apply nodup_inc, numbered_nodup |]. intros [r d]. rewrite E, inc_incident. reflexivity.
Qed.
(* summing over all nodes meets every incidence once *)
Lemma exchange (F : Z -> Z -> Z -> Z) : proper g -> total (map (fun i => total (map (fun rc => total (map (fun d => if node_at (snd rc) d =? i then F i (fst rc) d else 0) (zrange 0 (csize (snd rc))))) rows)) (gnodes g)) =
  total (map (fun rc => total (map (fun d => F (node_at (snd rc) d) (fst rc) d) (zrange 0 (csize (snd rc))))) rows).
Proof.
  intros (N & _ & W). rewrite total_swap. apply total_ext. intros [r c] I. cbn [fst snd]. rewrite total_swap. apply total_ext. intros d Id. apply in_zrange in Id. apply (total_pick (fun i => F i r d)); [ exact N |]. destruct (W c (in_rows_clique r c I)) as (_ & W2 & _). apply W2, node_at_in. lia.
Qed.

Lemma shares a r n : 0 <= n -> 0 <= r <= n -> total (map (fun d => a + (if d <? r then 1 else 0)) (zrange 0 n)) = n * a + r.
Proof.
  intros Hn Hr. assert (G : forall m, 0 <= m -> total (map (fun d => a + (if d <? r then 1 else 0)) (zrange 0 m)) = m * a + Z.min r m); [| rewrite G; lia ].
  intros m Hm. pattern m. apply natlike_ind; [ cbn; lia | | exact Hm ]. clear m Hm. intros m Hm IH. rewrite zrange_snoc, map_app, total_app, IH by exact Hm. cbn [map]. rewrite total_cons. change (total []) with 0. rewrite Z.add_0_l. destruct (m <? r) eqn:E; lia.
Qed.

(* --- starting duals --- *)
Variable x : Z -> Z.
Definition started (ns : list Z) (cs : list clique) (st : duals) : Prop :=
  seen st = Z.of_nat (length cs) /\ (forall r k, Z.of_nat (length cs) <= r -> dual st r k = 0) /\
  (forall r c, In (r, c) (numbered 0 cs) -> row_now st x (r, c) = ccost c (map x (cnodes c))) /\
  (forall i l, 0 <= l < nlab g -> height st i l = (if existsb (Z.eqb i) ns then unary g i l else 0) + total (map (row_sum st i l) (numbered 0 cs))).
Definition decent (c : clique) : Prop := cnodes c <> [] /\ (forall i, In i (cnodes c) -> 0 <= x i < nlab g) /\ 0 <= ccost c (map x (cnodes c)).
Lemma decent_size c : decent c -> 0 < csize c.
Proof. intros (H & _). unfold csize. destruct (cnodes c); [ congruence | cbn [length]; lia ]. Qed.
Lemma decent_lab c d : decent c -> 0 <= d < csize c -> 0 <= x (node_at c d) < nlab g.
Proof. intros (_ & H & _) Hd. apply H, node_at_in, Hd. Qed.

Lemma setup_clique_ok ns cs st c : decent c -> started ns cs st -> exists st', setup_clique g x st c = Some st' /\ started ns (cs ++ [c]) st'.
Proof.
  intros D (S1 & S2 & S3 & S4). unfold setup_clique. pose proof (proj2 (proj2 D)) as D3. pose proof (decent_size c D) as Sz. set (cost := ccost c (map x (cnodes c))). assert (C0 : 0 <= cost) by exact D3. unfold ensure. replace (0 <=? cost) with true by lia.
  set (avg := cost / csize c). set (rem := cost mod csize c). assert (Er : cost = csize c * avg + rem) by (apply Z.div_mod; lia). assert (Br : 0 <= rem < csize c) by (apply Z.mod_pos_bound; lia).
  set (st' := fold_left _ _ st). eexists. split; [ reflexivity |]. set (r := Z.of_nat (length cs)) in *. set (lab d := x (node_at c d)). set (delta d := avg + (if d <? rem then 1 else 0)).
  assert (R : raised c r lab delta (csize c) st st').
  { unfold st'. apply fold_raised; [ intros d Hd; now apply decent_lab | | lia ]. intros s d Hd E1 E2. unfold bump, setup_member. cbn [dual height seen]. rewrite E2, S1. fold (lab d). rewrite S2 in E1 by lia. unfold upd2. split; [| split; [| reflexivity ] ].
    - intros r' k. destruct ((r' =? r) && (k =? column g d (lab d))) eqn:Q; [| lia ]. apply andb_true_iff in Q. destruct Q as [Q1 Q2]. apply Z.eqb_eq in Q1, Q2. subst r' k. rewrite E1. unfold delta. destruct (d <? rem); lia.
    - intros i l. destruct ((i =? node_at c d) && (l =? lab d)) eqn:Q; [| lia ]. apply andb_true_iff in Q. destruct Q as [Q1 Q2]. apply Z.eqb_eq in Q1, Q2. subst i l. unfold delta. destruct (d <? rem); lia. }
  assert (Lb : forall d, 0 <= d < csize c -> 0 <= lab d < nlab g) by (intros d Hd; now apply decent_lab).
  split; [| split; [| split ] ]; cbn [dual height seen].
  - destruct R as (_ & _ & ->). rewrite S1, app_length. cbn [length]. lia.
  - intros r' k H. rewrite app_length in H. cbn [length] in H. rewrite (raised_else c r lab delta (csize c) st st') by (exact R || lia). apply S2. lia.
  - intros r' c' I. rewrite numbered_app in I. apply in_app_iff in I. destruct I as [I|I].
    + rewrite <- (S3 r' c' I). unfold row_now. cbn [fst snd dual]. apply total_ext. intros d _. apply (raised_else c r lab delta (csize c) st st'); [ exact R |]. apply in_numbered in I. destruct I as [I1 I2]. assert (Z.to_nat (r' - 0) < length cs)%nat by (apply nth_error_Some; congruence). lia.
    + rewrite numbered_cons in I. destruct I as [I|[]]. inversion I; subst r' c'. unfold row_now. cbn [fst snd dual]. fold r. transitivity (total (map delta (zrange 0 (csize c)))).
      * apply total_ext. intros d Id. apply in_zrange in Id. fold (lab d). rewrite (raised_here c r lab delta (csize c) st st') by (exact R || exact Lb || lia || (apply Lb; lia)). rewrite S2, Z.eqb_refl by lia. lia.
      * unfold delta. rewrite shares by lia. fold cost. lia.
  - intros i l Hl. rewrite numbered_app, map_app, total_app, numbered_cons. cbn [map]. rewrite total_cons. change (total (map _ (numbered _ []))) with 0. pose proof (proj1 (proj2 R)) as R2. rewrite R2, S4 by exact Hl. rewrite Z.add_0_l. fold r.
    change (row_sum {| dual := dual st'; height := height st'; seen := seen st' + 1 |}) with (row_sum st'). rewrite (raised_row c r lab delta st st' i l R Lb Hl). replace (row_sum st i l (r, c)) with 0.
    2:{ unfold row_sum. symmetry. transitivity (total (map (fun _ : Z => 0) (zrange 0 (csize c)))); [| apply total_zero ]. cbn [fst snd]. apply total_ext. intros d _. rewrite S2 by lia. now destruct (node_at c d =? i). }
    replace (total (map (row_sum st' i l) (numbered 0 cs))) with (total (map (row_sum st i l) (numbered 0 cs))); [ lia |].
    apply total_ext. intros [r' c'] I. symmetry. apply (raised_other c r lab delta (csize c)); [ exact R |]. cbn [fst]. apply in_numbered in I. destruct I as [I1 I2]. assert (Z.to_nat (r' - 0) < length cs)%nat by (apply nth_error_Some; congruence). lia.
Qed.
Lemma setup_cliques_ok ns ds : (forall c, In c ds -> decent c) -> forall cs st, started ns cs st -> exists st', ofold (setup_clique g x) ds st = Some st' /\ started ns (cs ++ ds) st'.
Proof.
  induction ds as [|c ds IH]; intros D cs st H; cbn [ofold]; [ exists st; rewrite app_nil_r; auto |]. destruct (setup_clique_ok ns cs st c (D c (or_introl eq_refl)) H) as (s1 & -> & H1). cbn [obind]. destruct (IH (fun c' I => D c' (or_intror I)) (cs ++ [c]) s1 H1) as (s2 & E & H2). exists s2. split; [ exact E |]. now rewrite <- app_assoc in H2.
Qed.
Lemma add_unary i n h : 0 <= n -> forall j l, fold_left (fun h l => upd2 h i l (h i l + unary g i l)) (zrange 0 n) h j l = h j l + (if (j =? i) && (0 <=? l) && (l <? n) then unary g i l else 0).
Proof.
  intro Hn. pattern n. apply natlike_ind; [ | | exact Hn ]; clear n Hn.
  - intros j l. cbn [zrange zseq Z.to_nat seq map fold_left]. destruct ((j =? i) && (0 <=? l) && (l <? 0)) eqn:E; lia.
  - intros n Hn IH j l. rewrite zrange_snoc, fold_left_app by exact Hn. cbn [fold_left]. set (f := fold_left _ _ h) in *. unfold upd2. rewrite !IH, Z.add_0_l. destruct (j =? i) eqn:E; cbn [andb].
    + destruct (l =? n) eqn:Q.
      * apply Z.eqb_eq in E, Q. subst j l. rewrite Z.eqb_refl, Z.ltb_irrefl, andb_false_r. rewrite (proj2 (Z.leb_le 0 n) Hn), (proj2 (Z.ltb_lt n (Z.succ n)) (Z.lt_succ_diag_r n)). cbn [andb]. lia.
      * assert (X : (l <? Z.succ n) = (l <? n)) by (clear - Q; apply Z.eqb_neq in Q; destruct (Z.ltb_spec l (Z.succ n)), (Z.ltb_spec l n); lia). rewrite X. reflexivity.
    + lia.
Qed.
Lemma setup_node_ok ns cs st i : 0 < nlab g -> ~ In i ns -> (forall c, In c (owned g i) -> decent c) -> started ns cs st -> exists st', setup_node g x st i = Some st' /\ started (ns ++ [i]) (cs ++ owned g i) st'.
Proof.
  intros Hn Ni D (S1 & S2 & S3 & S4). unfold setup_node. apply setup_cliques_ok; [ exact D |]. split; [ exact S1 |]. split; [ exact S2 |]. split; [ exact S3 |]. cbn [height]. intros j l Hl. rewrite add_unary, S4 by lia. change (row_sum {| dual := dual st; height := _; seen := seen st |}) with (row_sum st).
  rewrite existsb_app. cbn [existsb]. rewrite orb_false_r. destruct (j =? i) eqn:E; cbn [andb].
  - apply Z.eqb_eq in E. subst j. replace (existsb (Z.eqb i) ns) with false. 2:{ symmetry. apply not_true_iff_false. intro Q. apply existsb_exists in Q. destruct Q as (u & I & Q). apply Z.eqb_eq in Q. subst u. tauto. } replace (0 <=? l) with true by lia. replace (l <? nlab g) with true by lia. cbn [orb andb]. lia.
  - rewrite orb_false_r. lia.
Qed.
Lemma setup_nodes_ok is : 0 < nlab g -> NoDup is -> (forall i, In i is -> forall c, In c (owned g i) -> decent c) -> forall ns cs st, (forall i, In i is -> ~ In i ns) -> started ns cs st ->
  exists st', ofold (setup_node g x) is st = Some st' /\ started (ns ++ is) (cs ++ flat_map (owned g) is) st'.
Proof.
  intros Hn N. induction N as [|i is Ni N IH]; intros D ns cs st Dj H; cbn [ofold flat_map]; [ exists st; rewrite !app_nil_r; auto |]. destruct (setup_node_ok ns cs st i Hn (Dj i (or_introl eq_refl)) (D i (or_introl eq_refl)) H) as (s1 & -> & H1). cbn [obind].
  destruct (IH (fun j J => D j (or_intror J)) (ns ++ [i]) (cs ++ owned g i) s1) as (s2 & E & H2); [| exact H1 |].
  - intros j J. rewrite in_app_iff. intros [Q|[Q|[]]]; [ apply (Dj j (or_intror J) Q) | subst j; tauto ].
  - exists s2. split; [ exact E |]. now rewrite <- !app_assoc in H2.
Qed.
Lemma existsb_mem i l : In i l -> existsb (Z.eqb i) l = true.
Proof. intro H. apply existsb_exists. exists i. split; [ exact H | apply Z.eqb_refl ]. Qed.
Definition row_heights (st : duals) : Prop := forall i l, In i (gnodes g) -> 0 <= l < nlab g -> height st i l = unary g i l + total (map (row_sum st i l) rows).
Lemma heights_rows st : heights g st <-> row_heights st.
Proof.
  split.
  - intros H i l Hi Hl. rewrite (H i l (inc rows i) Hi Hl); [| apply nodup_inc, numbered_nodup | intros r d; apply inc_incident ]. f_equal. exact (total_inc (fun r d => dual st r (column g d l)) rows i).
  - intros H i l P Hi Hl N E. rewrite (H i l Hi Hl). f_equal. symmetry. exact (incidence_sum (fun r d => dual st r (column g d l)) i P N E).
Qed.
Lemma tight_rows st y : tight g y st <-> forall r c, In (r, c) rows -> row_now st y (r, c) = ccost c (map y (cnodes c)).
Proof. split; intros H r c; [ intro I; apply in_rows in I; apply H; tauto | intros H1 H2; apply H; apply in_rows; tauto ]. Qed.
Lemma proper_decent : proper g -> labelling g x -> forall c, In c (all_cliques g) -> decent c.
Proof. intros (_ & _ & W) L c I. destruct (W c I) as (W1 & W2 & W3). split; [ exact W1 |]. split; [ intros i J; apply L, W2, J | now apply W3 ]. Qed.
Lemma setup_ok : proper g -> labelling g x -> exists st, setup g x = Some st /\ tight g x st /\ heights g st.
Proof.
  intros W L. destruct (setup_nodes_ok (gnodes g)) with (ns := @nil Z) (cs := @nil clique) (st := Duals (fun _ _ => 0) (fun _ _ => 0) 0) as (st & E & (_ & _ & S3 & S4)).
  - apply W.
  - apply W.
  - intros i Hi c Hc. apply (proper_decent W L). unfold all_cliques. apply in_flat_map. exists i. tauto.
  - intros i _ [].
  - split; [ reflexivity |]. split; [ reflexivity |]. split; [ intros r c [] | reflexivity ].
  - exists st. split; [ exact E |]. cbn [app] in S3, S4. fold (all_cliques g) in S3, S4. split; [ apply tight_rows; exact S3 |]. apply heights_rows. intros i l Hi Hl. rewrite S4 by exact Hl. now rewrite existsb_mem.
Qed.
Lemma heights_energy st : proper g -> labelling g x -> tight g x st -> heights g st -> total (map (fun i => height st i (x i)) (gnodes g)) = energy g x.
Proof.
  intros W L T H. apply heights_rows in H. rewrite tight_rows in T. unfold energy. rewrite (total_ext _ (fun i => unary g i (x i) + total (map (row_sum st i (x i)) rows)) (gnodes g)) by (intros i Hi; apply H; [ exact Hi | now apply L ]). rewrite total_add. f_equal.
  unfold row_sum. rewrite (exchange (fun i r d => dual st r (column g d (x i))) W). rewrite <- (numbered_snd (all_cliques g) 0) at 2. rewrite map_map. apply total_ext. intros [r c] I. exact (T r c I).
Qed.

(* --- the problem --- *)
Variable alpha : Z.
Lemma mask_bits (S : Z -> bool) c : forall n, 0 <= n -> let m := total (map (fun d => if S (node_at c d) then 2 ^ d else 0) (zrange 0 n)) in
  0 <= m < 2 ^ n /\ forall k, 0 <= k < n -> Z.testbit m k = S (node_at c k).
Proof.
  intros n Hn. pattern n. apply natlike_ind; [ | | exact Hn ]; clear n Hn.
  - cbn. split; [ lia | lia ].
  - intros n Hn IH. cbv zeta in *. rewrite zrange_snoc, map_app, total_app by exact Hn. cbn [map]. rewrite total_cons, Z.add_0_l. change (total []) with 0. rewrite Z.add_0_r. set (m := total _) in *. destruct IH as [B T]. rewrite Z.pow_succ_r by exact Hn. set (b := S (node_at c n)) in *. split; [ destruct b; lia |].
    assert (E : m + (if b then 2 ^ n else 0) = Z.lor m (Z.shiftl (Z.b2z b) n)).
    { replace (if b then 2 ^ n else 0) with (Z.shiftl (Z.b2z b) n) by (rewrite Z.shiftl_mul_pow2 by exact Hn; destruct b; cbn [Z.b2z]; lia).
      assert (Z0 : Z.land m (Z.shiftl (Z.b2z b) n) = 0). { apply Z.bits_inj'. intros i Hi. rewrite Z.land_spec, Z.bits_0, Z.shiftl_spec by exact Hi. destruct (Z_lt_ge_dec i n); [ rewrite (Z.testbit_neg_r _ (i - n)) by lia; apply andb_false_r |]. destruct (Z.testbit m i) eqn:Q; [ apply (bit_bound n) in Q; lia | reflexivity ]. }
      rewrite Z.add_nocarry_lxor by exact Z0. apply Z.lxor_lor. exact Z0. }
    intros k Hk. rewrite E, Z.lor_spec, Z.shiftl_spec by lia. destruct (Z.eq_dec k n) as [->|N].
    + replace (Z.testbit m n) with false by (symmetry; apply not_true_iff_false; intro Q; apply (bit_bound n) in Q; lia). rewrite Z.sub_diag. fold b. now destruct b.
    + rewrite (Z.testbit_neg_r _ (k - n)), orb_false_r by lia. apply T. lia.
Qed.
Lemma table_value st r c old (S : Z -> bool) : let cur d := x (node_at c d) in
  subtract_linear (csize c) (energy_table (csize c) (ccost c) cur (fun _ => alpha) old) (fun d => dual st r (column g d alpha)) (fun d => dual st r (column g d (cur d))) (mask S c) =
  ccost c (map (fused x alpha S) (cnodes c)) - total (map (fun d => if S (node_at c d) then dual st r (column g d alpha) else dual st r (column g d (cur d))) (zrange 0 (csize c))).
Proof.
  cbv zeta. destruct (mask_bits S c (csize c) (csize_nonneg c)) as (B & T). cbv zeta in B, T. fold (mask S c) in B, T. rewrite subtract_linear_spec, energy_table_spec by (exact B || apply csize_nonneg). f_equal.
  - f_equal. rewrite <- map_node_at. apply map_ext_in. intros d Id. apply in_zrange in Id. unfold choice, fused. now rewrite T by lia.
  - apply total_ext. intros d Id. apply in_zrange in Id. unfold choice. now rewrite T by lia.
Qed.
Lemma mask_nobody c : mask nobody c = 0.
Proof. unfold mask, nobody. apply total_zero. Qed.
Lemma fused_nobody l : map (fused x alpha nobody) l = map x l.
Proof. reflexivity. Qed.
Definition tbl (st : duals) (old : Z -> Z -> Z) (rc : Z * clique) : Z -> Z :=
  subtract_linear (csize (snd rc)) (energy_table (csize (snd rc)) (ccost (snd rc)) (fun d => x (node_at (snd rc) d)) (fun _ => alpha) (old (fst rc))) (fun d => dual st (fst rc) (column g d alpha)) (fun d => dual st (fst rc) (column g d (x (node_at (snd rc) d)))).
Lemma pose_some st old : tight g x st -> pose g x alpha st old = Some (Problem (unary_terms g x alpha st) (map (fun rc => (snd rc, tbl st old rc)) rows)).
Proof.
  intro T. rewrite tight_rows in T. unfold pose. rewrite (omap_some _ (fun rc => (snd rc, tbl st old rc))); [ reflexivity |]. intros [r c] I. unfold clique_table, ensure. cbn [fst snd]. fold (tbl st old (r, c)).
  assert (E : tbl st old (r, c) 0 = 0); [| unfold tbl in *; cbn [fst snd] in *; rewrite E; reflexivity ].
  unfold tbl. cbn [fst snd]. rewrite <- (mask_nobody c). rewrite table_value. rewrite fused_nobody. specialize (T r c I). unfold row_now in T. cbn [fst snd] in T. unfold nobody. rewrite T. fold nobody. rewrite mask_nobody. apply Z.sub_diag.
Qed.
Lemma pose_value st old (S : Z -> bool) : proper g -> labelling g x -> 0 <= alpha < nlab g -> exact_members g -> forall p, p = Problem (unary_terms g x alpha st) (map (fun rc => (snd rc, tbl st old rc)) rows) ->
  value g p S - value g p nobody = energy g (fused x alpha S) - energy g x.
Proof.
  intros W L Ha M p ->. unfold value. cbn [terms tables]. rewrite !map_map. cbn [fst snd].
  set (lin (S : Z -> bool) := fun rc : Z * clique => total (map (fun d => if S (node_at (snd rc) d) : bool then dual st (fst rc) (column g d alpha) else dual st (fst rc) (column g d (x (node_at (snd rc) d)))) (zrange 0 (csize (snd rc))))).
  assert (Tb : forall S : Z -> bool, total (map (fun rc => tbl st old rc (mask S (snd rc))) rows) = total (map (fun c => ccost c (map (fused x alpha S) (cnodes c))) (all_cliques g)) - total (map (lin S) rows)).
  { intro S'. transitivity (total (map (fun rc => ccost (snd rc) (map (fused x alpha S') (cnodes (snd rc))) - lin S' rc) rows)).
    - apply total_ext. intros [r c] _. apply table_value.
    - rewrite total_minus. f_equal. rewrite <- (numbered_snd (all_cliques g) 0) at 2. rewrite map_map. reflexivity. }
  rewrite !Tb. unfold energy.
  (* the nodes *)
  set (u (S : Z -> bool) := fun i : Z => if S i : bool then snd (unary_terms g x alpha st i) else fst (unary_terms g x alpha st i)).
  set (ex := fun i => total (map (fun rc => total (map (fun d => if node_at (snd rc) d =? i then (if S i then dual st (fst rc) (column g d (x i)) - dual st (fst rc) (column g d alpha) else 0) else 0) (zrange 0 (csize (snd rc))))) rows)).
  assert (U : forall i, In i (gnodes g) -> u S i - u nobody i = unary g i (fused x alpha S i) - unary g i (x i) - ex i).
  { intros i Hi. unfold u, nobody, fused, ex. destruct (S i) eqn:Si.
    - assert (Et : snd (unary_terms g x alpha st i) - fst (unary_terms g x alpha st i) = move_cost g x alpha i - total (map (fun rd => dual st (fst rd) (column g (snd rd) (x i)) - dual st (fst rd) (column g (snd rd) alpha)) (members g i))).
      { unfold unary_terms. rewrite fold_sum. set (t := - _ + _). assert (Q : t = - move_cost g x alpha i + total (map (fun rd => dual st (fst rd) (column g (snd rd) (x i)) - dual st (fst rd) (column g (snd rd) alpha)) (members g i))) by reflexivity. clearbody t. destruct (0 <? t); cbn [fst snd]; lia. }
      rewrite Et. destruct (M i Hi) as [M1 M2]. rewrite (incidence_sum (fun r d => dual st r (column g d (x i)) - dual st r (column g d alpha)) i (members g i) M1 M2). unfold move_cost. destruct (x i =? alpha) eqn:Q; [ apply Z.eqb_eq in Q; rewrite Q | ]; lia.
    - replace (total _) with 0; [ lia |]. symmetry. transitivity (total (map (fun _ : Z * clique => 0) rows)); [| apply total_zero ]. apply total_ext. intros rc _. transitivity (total (map (fun _ : Z => 0) (zrange 0 (csize (snd rc))))); [| apply total_zero ]. apply total_ext. intros d _. now destruct (node_at (snd rc) d =? i). }
  assert (U2 : total (map (u S) (gnodes g)) - total (map (u nobody) (gnodes g)) = total (map (fun i => unary g i (fused x alpha S i)) (gnodes g)) - total (map (fun i => unary g i (x i)) (gnodes g)) - total (map ex (gnodes g))) by (rewrite <- !total_minus; apply total_ext; exact U).
  assert (X : total (map ex (gnodes g)) = total (map (lin nobody) rows) - total (map (lin S) rows)).
  { unfold ex. rewrite (exchange (fun i r d => if S i then dual st r (column g d (x i)) - dual st r (column g d alpha) else 0) W). rewrite <- total_minus. apply total_ext. intros rc _. unfold lin, nobody. rewrite <- total_minus. apply total_ext. intros d _. destruct (S (node_at (snd rc) d)); lia. }
  set (cs y := total (map (fun c => ccost c (map y (cnodes c))) (all_cliques g))). change (total (map (u S) (gnodes g)) + (cs (fused x alpha S) - total (map (lin S) rows)) - (total (map (u nobody) (gnodes g)) + (cs x - total (map (lin nobody) rows))) =
    total (map (fun i => unary g i (fused x alpha S i)) (gnodes g)) + cs (fused x alpha S) - (total (map (fun i => unary g i (x i)) (gnodes g)) + cs x)). lia.
Qed.

(* --- after the solver has answered --- *)
Lemma relabel_fold answer l : forall y i, fold_left (fun y i => if (answer i =? 1) && negb (y i =? alpha) then upd y i alpha else y) l y i = if existsb (Z.eqb i) l && (answer i =? 1) then alpha else y i.
Proof.
  induction l as [|a l IH]; intros y i; cbn [fold_left existsb]; [ reflexivity |]. rewrite IH. destruct (existsb (Z.eqb i) l && (answer i =? 1)) eqn:E.
  - apply andb_true_iff in E. destruct E as [-> ->]. now rewrite orb_true_r.
  - destruct (Z.eq_dec i a) as [->|N].
    + rewrite Z.eqb_refl. cbn [orb andb]. destruct (answer a =? 1); cbn [andb]; [| reflexivity ]. destruct (y a =? alpha) eqn:Q; cbn [negb]; [ now apply Z.eqb_eq in Q | apply upd_same ].
    + replace (i =? a) with false by lia. cbn [orb]. rewrite E. destruct ((answer a =? 1) && negb (y a =? alpha)); [ now apply upd_other | reflexivity ].
Qed.
Lemma relabel_spec answer i : In i (gnodes g) -> relabel g x alpha answer i = fused x alpha (fun i => answer i =? 1) i.
Proof. intro H. unfold relabel. rewrite relabel_fold, existsb_mem by exact H. reflexivity. Qed.
Lemma raised_heights c r lab delta st st' : In (r, c) rows -> raised c r lab delta (csize c) st st' -> (forall d, 0 <= d < csize c -> 0 <= lab d < nlab g) -> row_heights st -> row_heights st'.
Proof.
  intros I R Lb H i l Hi Hl. pose proof (proj1 (proj2 R)) as R2. rewrite R2, (H i l Hi Hl). rewrite (total_one (row_sum st i l) (row_sum st' i l) rows (r, c) (total (map (fun d => if (i =? node_at c d) && (l =? lab d) then delta d else 0) (zrange 0 (csize c))))); [ lia | apply numbered_nodup | exact I | |].
  - intros b _ N. apply (raised_other c r lab delta (csize c)); [ exact R | exact N ].
  - now apply raised_row.
Qed.
Lemma upd2_add f a b v x1 y1 : upd2 f a b (f a b + v) x1 y1 = f x1 y1 + (if (x1 =? a) && (y1 =? b) then v else 0).
Proof. unfold upd2. destruct ((x1 =? a) && (y1 =? b)) eqn:Q; [| lia ]. apply andb_true_iff in Q. destruct Q as [Q1 Q2]. apply Z.eqb_eq in Q1, Q2. now subst. Qed.
Lemma add_phi_raised phi st r c : 0 <= alpha < nlab g -> raised c r (fun _ => alpha) (phi r) (csize c) st (add_phi g alpha phi st (r, c)).
Proof.
  intro Ha. unfold add_phi. cbn [fst snd]. apply fold_raised; [ intros; exact Ha | | apply csize_nonneg ]. intros s d _ _ _. unfold bump. cbn [dual height seen]. split; [| split; [| reflexivity ] ]; intros; apply upd2_add.
Qed.
Lemma add_phis_heights phi L : 0 <= alpha < nlab g -> (forall rc, In rc L -> In rc rows) -> forall st, row_heights st -> row_heights (fold_left (add_phi g alpha phi) L st).
Proof.
  intro Ha. induction L as [|[r c] L IH]; intros Sub st H; cbn [fold_left]; [ exact H |]. apply IH; [ intros rc I; apply Sub; now right |]. apply (raised_heights c r (fun _ => alpha) (phi r) st); [ apply Sub; now left | now apply add_phi_raised | intros; exact Ha | exact H ].
Qed.
Lemma correct_raised st r c : decent c -> exists delta, raised c r (fun d => x (node_at c d)) delta (csize c) st (correct g x st (r, c)) /\ total (map delta (zrange 0 (csize c))) = ccost c (map x (cnodes c)) - row_now st x (r, c).
Proof.
  intro D. pose proof (decent_size c D) as Sz. unfold correct. cbn [fst snd]. rewrite fold_sum, Z.add_0_l. change (total (map (fun d => dual st r (column g d (x (node_at c d)))) (zrange 0 (csize c)))) with (row_now st x (r, c)). set (co := ccost c (map x (cnodes c)) - row_now st x (r, c)).
  set (q := Z.quot co (csize c)). set (m := Z.rem co (csize c)). assert (Eq : co = csize c * q + m) by (apply Z.quot_rem'). assert (Bm : - csize c < m < csize c) by (unfold m; pose proof (Z.rem_bound_abs co (csize c) ltac:(lia)); lia).
  set (avg := if m <? 0 then q - 1 else q). set (rem := if m <? 0 then m + csize c else m). assert (Er : csize c * avg + rem = co /\ 0 <= rem < csize c). { unfold avg, rem. destruct (Z.ltb_spec m 0); nia. }
  exists (fun d => avg + (if d <? rem then 1 else 0)). split; [| rewrite shares by lia; lia ]. apply fold_raised; [ intros d Hd; now apply decent_lab | | lia ]. intros s d Hd _ _. unfold bump, correct_member. cbn [dual height seen]. split; [| split; [| reflexivity ] ].
  - intros r' k. rewrite <- Z.add_assoc. apply upd2_add.
  - intros i l. unfold upd2. rewrite !Z.eqb_refl. cbn [andb]. destruct ((i =? node_at c d) && (l =? x (node_at c d))) eqn:Q; [| lia ]. apply andb_true_iff in Q. destruct Q as [Q1 Q2]. apply Z.eqb_eq in Q1, Q2. subst. lia.
Qed.
Lemma corrects_ok L : (forall c, In c (all_cliques g) -> decent c) -> NoDup (map fst L) -> (forall rc, In rc L -> In rc rows) -> forall st, row_heights st ->
  row_heights (fold_left (correct g x) L st) /\ (forall r c, In (r, c) L -> row_now (fold_left (correct g x) L st) x (r, c) = ccost c (map x (cnodes c))) /\ (forall r k, ~ In r (map fst L) -> dual (fold_left (correct g x) L st) r k = dual st r k).
Proof.
  intros D. induction L as [|[r c] L IH]; intros N Sub st H; cbn [fold_left]; [ split; [ exact H | split; [ intros r c [] | reflexivity ] ] |]. inversion N; subst. assert (Ir : In (r, c) rows) by (apply Sub; now left). assert (Dc : decent c) by (apply D; now apply (in_rows_clique r)).
  destruct (correct_raised st r c Dc) as (delta & R & Tt). set (s1 := correct g x st (r, c)) in *. assert (Lb : forall d, 0 <= d < csize c -> 0 <= x (node_at c d) < nlab g) by (intros d Hd; now apply decent_lab).
  destruct (IH H3 (fun rc I => Sub rc (or_intror I)) s1) as (A1 & A2 & A3); [ exact (raised_heights c r (fun d => x (node_at c d)) delta st s1 Ir R Lb H) |]. split; [ exact A1 |]. split.
  - intros r' c' [E|I]; [| now apply A2 ]. inversion E; subst r' c'. transitivity (row_now s1 x (r, c)); [ unfold row_now; apply total_ext; intros d _; apply A3; exact H2 |].
    transitivity (row_now st x (r, c) + total (map delta (zrange 0 (csize c)))); [| lia ]. unfold row_now. cbn [fst snd]. rewrite <- total_add. apply total_ext. intros d Id. apply in_zrange in Id. rewrite (raised_here c r (fun d => x (node_at c d)) delta (csize c) st s1 d) by (exact R || exact Lb || lia || (apply Lb; lia)). now rewrite Z.eqb_refl.
  - intros r' k Nr. cbn [map fst In] in Nr. rewrite A3 by tauto. apply (raised_else c r (fun d => x (node_at c d)) delta (csize c)); [ exact R | intro Q; apply Nr; now left ].
Qed.
End Graph.

Lemma finish_ok g x alpha answer phi st : proper g -> labelling g x -> 0 <= alpha < nlab g -> heights g st ->
  let (x', st') := finish g x alpha answer phi st in
  (forall i, In i (gnodes g) -> x' i = fused x alpha (fun i => answer i =? 1) i) /\ labelling g x' /\ tight g x' st' /\ heights g st'.
Proof.
  intros W L Ha H. unfold finish. set (x' := relabel g x alpha answer).
  assert (E : forall i, In i (gnodes g) -> x' i = fused x alpha (fun i => answer i =? 1) i) by (intros i Hi; now apply relabel_spec).
  assert (L' : labelling g x') by (intros i Hi; rewrite (E i Hi); unfold fused; destruct (answer i =? 1); [ exact Ha | now apply L ]).
  apply heights_rows in H. destruct (corrects_ok g x' (numbered 0 (all_cliques g)) (proper_decent g x' W L') (numbered_nodup _ _) (fun rc I => I) (fold_left (add_phi g alpha phi) (numbered 0 (all_cliques g)) st)) as (A1 & A2 & _); [ apply add_phis_heights; [ exact Ha | auto | exact H ] |].
  split; [ exact E |]. split; [ exact L' |]. split; [ apply (proj2 (tight_rows g x _ x') A2) | apply heights_rows; exact A1 ].
Qed.
Lemma pose_ok g x alpha st old : proper g -> labelling g x -> 0 <= alpha < nlab g -> exact_members g -> tight g x st ->
  exists p, pose g x alpha st old = Some p /\ forall S, value g p S - value g p nobody = energy g (fused x alpha S) - energy g x.
Proof. intros W L Ha M T. eexists. split; [ now apply pose_some |]. intro S. eapply pose_value; eauto. Qed.
Lemma pose_minimizer g x alpha st old p S : proper g -> labelling g x -> 0 <= alpha < nlab g -> exact_members g -> tight g x st -> pose g x alpha st old = Some p ->
  (forall S', value g p S <= value g p S') -> forall S', energy g (fused x alpha S) <= energy g (fused x alpha S').
Proof.
  intros W L Ha M T E Mn S'. destruct (pose_ok g x alpha st old W L Ha M T) as (p' & E' & V). rewrite E in E'. injection E' as <-. pose proof (V S). pose proof (V S'). specialize (Mn S'). lia.
Qed.
Lemma clique_table_ok g x alpha st r c old t S : clique_table g x alpha st r c old = Some t ->
  t (mask S c) = ccost c (map (fused x alpha S) (cnodes c)) - total (map (fun d => dual st r (column g d (fused x alpha S (node_at c d)))) (zrange 0 (csize c))).
Proof.
  unfold clique_table, ensure. destruct (_ =? 0); [| discriminate ]. intro E. injection E as <-. rewrite table_value. f_equal. apply total_ext. intros d _. unfold fused. now destruct (S (node_at c d)).
Qed.
Lemma exact_by g : (forall i, In i (gnodes g) -> members g i = inc (numbered 0 (all_cliques g)) i) -> exact_members g.
Proof. intros H i Hi. rewrite (H i Hi). split; [ apply nodup_inc, numbered_nodup |]. intros r d. apply inc_incident. Qed.
