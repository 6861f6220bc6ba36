From Coq Require Import ZArith List Bool Lia.
From Verif Require Import Lib.Grid Model.EdgeMatch Spec.KOfN Spec.EdgeMatch Proofs.EdgeMatch.
Import ListNotations.
Open Scope Z_scope.

Definition sn (t : task) : Z := Z.of_nat (length (nodes_segm t)).
Definition gn (t : task) : Z := Z.of_nat (length (nodes_gt t)).
Definition task_graph (t : task) (w : Z) (o : outliers) : list edge := graph (sn t) (gn t) w o (real_edges t).

(* the nodes are the edge pixels with one of the other side near, in raster order and numbered by it *)
Theorem C117_nodes : forall t, 0 <= radius t -> dist2 t <= radius t * radius t ->
  (forall p, In p (nodes_segm t) <-> In p (all_px t) /\ segm t p = true /\ exists q, In q (all_px t) /\ gt t q = true /\ within (dist2 t) p q) /\
  (forall q, In q (nodes_gt t) <-> In q (all_px t) /\ gt t q = true /\ exists p, In p (all_px t) /\ segm t p = true /\ within (dist2 t) p q) /\
  NoDup (nodes_segm t) /\ NoDup (nodes_gt t) /\
  (forall i, 0 <= i < sn t -> place (nth (Z.to_nat i) (nodes_segm t) (0, 0)) (nodes_segm t) = i) /\ forall j, 0 <= j < gn t -> place (nth (Z.to_nat j) (nodes_gt t) (0, 0)) (nodes_gt t) = j.
Proof.
  intros t R D. assert (F : fair t) by (split; assumption). assert (N1 : NoDup (nodes_segm t)) by (apply NoDup_filter, nodup_all_px). assert (N2 : NoDup (nodes_gt t)) by (apply NoDup_filter, nodup_all_px). split; [|split; [|split; [exact N1|split; [exact N2|split]]]].
  - intros p. unfold nodes_segm. rewrite filter_In. split; intros [A B]; (split; [exact A|]); apply (matchable_segm_iff t p F A); exact B.
  - intros q. unfold nodes_gt. rewrite filter_In. split; intros [A B]; (split; [exact A|]); apply (matchable_gt_iff t q F A); exact B.
  - intros i H. apply place_of_nth; assumption.
  - intros i H. apply place_of_nth; assumption.
Qed.
Print Assumptions C117_nodes.
(* and there is an edge between two nodes just if their pixels are near, weighted by a hundredth of a pixel *)
Theorem C117_edges : forall t i j c, 0 <= radius t -> dist2 t <= radius t * radius t -> In (i, j, c) (real_edges t) <->
  0 <= i < sn t /\ 0 <= j < gn t /\ let p := nth (Z.to_nat i) (nodes_segm t) (0, 0) in let q := nth (Z.to_nat j) (nodes_gt t) (0, 0) in
  within (dist2 t) p q /\ c = weight ((fst p - fst q) * (fst p - fst q) + (snd p - snd q) * (snd p - snd q)).
Proof.
  intros t i j c R D. assert (F : fair t) by (split; assumption). destruct (C117_nodes t R D) as (N1 & N2 & _ & _ & N3 & N4). rewrite (real_edges_iff t _ F). cbv zeta. split.
  - intros (p & q & P & Q & SP & GQ & W & E). destruct (in_nodes_segm t p q F P Q SP GQ W) as [A B]. injection E as -> -> ->. destruct (place_nth _ p (0, 0) A) as [A1 A2], (place_nth _ q (0, 0) B) as [B1 B2]. unfold sn, gn. rewrite A2, B2. unfold gap. auto.
  - intros (Hi & Hj & W & E). assert (A : In (nth (Z.to_nat i) (nodes_segm t) (0, 0)) (nodes_segm t)) by (apply nth_In; unfold sn in Hi; lia). assert (B : In (nth (Z.to_nat j) (nodes_gt t) (0, 0)) (nodes_gt t)) by (apply nth_In; unfold gn in Hj; lia). exists (nth (Z.to_nat i) (nodes_segm t) (0, 0)), (nth (Z.to_nat j) (nodes_gt t) (0, 0)). rewrite (N3 i Hi), (N4 j Hj). apply N1 in A. apply N2 in B. unfold gap. rewrite E. tauto.
Qed.
Print Assumptions C117_edges.
Theorem C117_weight : forall d, 0 <= d -> 0 <= weight d /\ (2 * weight d - 1) * (2 * weight d - 1) <= 4 * (10000 * d) + 1 <= (2 * weight d + 1) * (2 * weight d + 1) + 1.
Proof.
  intros d H. assert (A := weight_nonneg d). assert (B := weight_near d H). assert (C := weight_up d H). cbv zeta in B. split; [exact A|]. split; [destruct B as [B|B]; [lia|rewrite B; lia]|lia].
Qed.
Print Assumptions C117_weight.

(* what kOfN writes (C116) is such a selection *)
Theorem C117_selection : forall k n v, 0 <= k -> sample k n 0 v -> selection k n (map v (zrange 0 k)).
Proof.
  intros k n v K [A B]. split; [rewrite map_length; apply zrange_size; exact K|]. split.
  - apply nodup_map; [|apply nodup_zrange]. intros x y X Y E. apply in_zrange in X, Y. destruct (Z.lt_trichotomy x y) as [L|[L|L]]; [|exact L|]; [assert (C := B x y ltac:(lia) ltac:(lia)); lia|assert (C := B y x ltac:(lia) ltac:(lia)); lia].
  - intros x X. apply in_map_iff in X. destruct X as (i & <- & I). apply in_zrange in I. apply A. lia.
Qed.
Print Assumptions C117_selection.

(* such lists can be drawn for any counts of nodes: never more numbers are asked of kOfN than there are, and never more than six *)
Theorem C117_drawable : forall s g, 0 <= s -> 0 <= g -> (exists o, fair_out s g o) /\ forall o, fair_out s g o -> (forall i, 0 <= i < s -> Z.of_nat (length (out_segm o i)) <= 6) /\ (forall j, 0 <= j < g -> Z.of_nat (length (out_gt o j)) <= 6) /\ forall i, 0 <= i < Z.max s g -> Z.of_nat (length (out_mix o i)) <= 6.
Proof.
  assert (S : forall k n, 0 <= k <= n -> selection k n (zrange 0 k)). { intros k n H. split; [apply zrange_size; lia|]. split; [apply nodup_zrange|]. intros x X. apply in_zrange in X. lia. }
  intros s g Hs Hg. split; [exists {| out_segm := fun _ => zrange 0 (degree_side s); out_gt := fun _ => zrange 0 (degree_side g); out_mix := fun _ => zrange 0 (degree_mix s g) |}|].
  - unfold fair_out. cbn [out_segm out_gt out_mix]. split; [|split]; intros i Hi; apply S; unfold degree_side, degree_mix; lia.
  - intros o (A & B & C). split; [|split]; intros i Hi; [destruct (A i Hi) as [-> _]|destruct (B i Hi) as [-> _]|destruct (C i Hi) as [-> _]]; unfold degree_side, degree_mix; lia.
Qed.
Print Assumptions C117_drawable.

(* the graph fills its rows exactly, joins nodes that exist, and no two nodes twice *)
Theorem C117_graph : forall t w o, 0 <= radius t -> dist2 t <= radius t * radius t -> fair_out (sn t) (gn t) o ->
  Z.of_nat (length (task_graph t w o)) = graph_rows (sn t) (gn t) (real_edges t) /\ (forall e, In e (task_graph t w o) -> 0 <= left_of e < sn t + gn t /\ 0 <= right_of e < sn t + gn t) /\ NoDup (map fst (task_graph t w o)).
Proof.
  intros t w o R D O. assert (F : fair t) by (split; assumption). assert (FR := task_fair_real t F). assert (S : 0 <= sn t) by (unfold sn; lia). assert (G : 0 <= gn t) by (unfold gn; lia). split; [apply graph_size; assumption|]. split; [|apply graph_nodup; assumption].
  intros e H. apply (in_graph _ _ w o _ e S G O FR) in H. lia.
Qed.
Print Assumptions C117_graph.
(* and always has a perfect match *)
Theorem C117_feasible : forall t w o, exists sol, perfect (sn t + gn t) (task_graph t w o) sol.
Proof. intros t w o. exists (overlay_segm (sn t) (gn t) w ++ overlay_gt (sn t) (gn t) w). apply overlay_perfect; unfold sn, gn; lia. Qed.
Print Assumptions C117_feasible.

(* whatever perfect match is returned: the pairs recorded are of near edge pixels, no pixel is in two of them *)
Theorem C117_pairs : forall t w o sol, 0 <= radius t -> dist2 t <= radius t * radius t -> fair_out (sn t) (gn t) o -> perfect (sn t + gn t) (task_graph t w o) sol ->
  (forall e, In e (recorded (sn t) (gn t) sol) -> let p := nth (Z.to_nat (left_of e)) (nodes_segm t) (0, 0) in let q := nth (Z.to_nat (right_of e)) (nodes_gt t) (0, 0) in segm t p = true /\ gt t q = true /\ within (dist2 t) p q) /\
  NoDup (tp_pixels t sol) /\ NoDup (map (fun e => nth (Z.to_nat (right_of e)) (nodes_gt t) (0, 0)) (recorded (sn t) (gn t) sol)).
Proof.
  intros t w o sol R D O P. assert (F : fair t) by (split; assumption). assert (FR := task_fair_real t F). destruct (C117_nodes t R D) as (_ & _ & _ & _ & N3 & N4).
  assert (B : forall e, In e (recorded (sn t) (gn t) sol) -> 0 <= left_of e < sn t /\ 0 <= right_of e < gn t). { intros e E. apply in_recorded in E. destruct E as (E & E1 & E2). destruct P as (_ & _ & _ & _ & P5). specialize (P5 e E). lia. }
  split; [|split].
  - intros e E. cbv zeta. assert (X := recorded_pixels t w o sol e F O P E). cbv zeta in X. tauto.
  - unfold tp_pixels. fold (sn t) (gn t). assert (N : NoDup (map left_of (recorded (sn t) (gn t) sol))) by (apply nodup_map_filter, P). rewrite <- (map_map left_of (fun i => nth (Z.to_nat i) (nodes_segm t) (0, 0))). apply nodup_map; [|exact N]. intros x y X Y E. apply in_map_iff in X, Y. destruct X as (a & <- & A), Y as (b & <- & A'). rewrite <- (N3 (left_of a)) by (apply B; exact A). rewrite E. apply N3. apply B. exact A'.
  - assert (N : NoDup (map right_of (recorded (sn t) (gn t) sol))) by (apply nodup_map_filter, P). rewrite <- (map_map right_of (fun i => nth (Z.to_nat i) (nodes_gt t) (0, 0))). apply nodup_map; [|exact N]. intros x y X Y E. apply in_map_iff in X, Y. destruct X as (a & <- & A), Y as (b & <- & A'). rewrite <- (N4 (right_of a)) by (apply B; exact A). rewrite E. apply N4. apply B. exact A'.
Qed.
Print Assumptions C117_pairs.
(* so the counts are within those of both masks, as the assertions behind the loop want *)
Theorem C117_counts : forall t w o sol, 0 <= radius t -> dist2 t <= radius t * radius t -> fair_out (sn t) (gn t) o -> perfect (sn t + gn t) (task_graph t w o) sol ->
  indiv_tp t sol <= count (gt t) (all_px t) /\ indiv_tp t sol <= count (segm t) (all_px t) /\ Z.of_nat (length (tp_pixels t sol)) = indiv_tp t sol.
Proof.
  intros t w o sol R D O P. assert (F : fair t) by (split; assumption). assert (FR := task_fair_real t F). assert (C := recorded_count (sn t) (gn t) w o _ sol ltac:(unfold sn; lia) ltac:(unfold gn; lia) O FR P). unfold indiv_tp, tp_pixels. fold (sn t) (gn t). rewrite map_length.
  assert (G : gn t <= count (gt t) (all_px t)). { change (count (matchable_gt t) (all_px t) <= count (gt t) (all_px t)). apply count_mono. intros q _ H. apply andb_true_iff in H. tauto. }
  assert (S : sn t <= count (segm t) (all_px t)). { change (count (matchable_segm t) (all_px t) <= count (segm t) (all_px t)). apply count_mono. intros q _ H. apply andb_true_iff in H. tauto. }
  unfold edge in *. lia.
Qed.
Print Assumptions C117_counts.

(* the cheapest match has about as many pairs as any that needs no overlay: what it lacks is at most the part r/w of them, for pairs of weight r at most *)
Theorem C117_best : forall t w r o sol sol', 0 <= w -> 0 <= radius t -> dist2 t <= radius t * radius t -> fair_out (sn t) (gn t) o -> (forall e, In e (real_edges t) -> cost_of e <= r) ->
  cheapest (sn t + gn t) (task_graph t w o) sol -> perfect (sn t + gn t) (task_graph t w o) sol' -> (forall e, In e sol' -> In e (real_edges t) \/ cost_of e = w) -> w * (indiv_tp t sol' - indiv_tp t sol) <= r * indiv_tp t sol'.
Proof.
  intros t w r o sol sol' W R D O RM C P N. assert (F : fair t) by (split; assumption). exact (near_best (sn t) (gn t) w r o _ sol sol' W ltac:(unfold sn; lia) ltac:(unfold gn; lia) O (task_fair_real t F) RM C P N).
Qed.
Print Assumptions C117_best.

(* but it depends on the outliers drawn: some draws leave room for six pairs only, whatever the edges *)
Theorem C117_six : forall t w, 0 <= radius t -> dist2 t <= radius t * radius t -> sn t = gn t -> 7 <= sn t -> exists o, fair_out (sn t) (gn t) o /\ forall sol, perfect (sn t + gn t) (task_graph t w o) sol -> indiv_tp t sol <= 6.
Proof.
  intros t w R D E N. assert (F : fair t) by (split; assumption). assert (FR := task_fair_real t F). fold (sn t) (gn t) in FR. exists poor. unfold task_graph, indiv_tp. fold (sn t) (gn t). rewrite <- E in *. split; [apply poor_fair; exact N|]. intros sol P. exact (poor_match (sn t) w _ sol N FR P).
Qed.
Print Assumptions C117_six.

(* an image that is its own ground truth *)
Definition row8 : task := {| rows := 1; cols := 8; radius := 1; dist2 := 0; segm := fun _ => true; gt := fun _ => true |}.
Definition turn : outliers := {| out_segm := fun _ => zrange 0 6; out_gt := fun _ => zrange 0 6; out_mix := fun i => if i <? 6 then zrange 0 6 else zrange 2 6 |}.
Definition all8 (w : Z) : list edge := map (fun i => (i, i, 0)) (zrange 0 8) ++ map (fun i => (8 + i, 8 + i, w)) (zrange 0 8).
Lemma turn_fair : fair_out 8 8 turn.
Proof.
  unfold fair_out. cbn [out_segm out_gt out_mix turn]. change (degree_side 8) with 6. change (degree_mix 8 8) with 6. change (Z.max 8 8) with 8. change (Z.min 8 8) with 8. split; [|split]; intros i Hi; try (apply selection_first; lia). destruct (i <? 6); [apply selection_first; lia|]. split; [reflexivity|]. split; [apply nodup_zrange|]. intros x X. apply in_zrange in X. lia.
Qed.
Lemma all8_perfect : perfect 16 (task_graph row8 605 turn) (all8 605).
Proof.
  assert (I : forallb (fun e => existsb (fun f => (left_of e =? left_of f) && (right_of e =? right_of f) && (cost_of e =? cost_of f)) (task_graph row8 605 turn)) (all8 605) = true) by (vm_compute; reflexivity).
  split; [|split; [reflexivity|split; [|split]]].
  - intros e E. rewrite forallb_forall in I. specialize (I e E). apply existsb_exists in I. destruct I as (f & Hf & H). rewrite !andb_true_iff, !Z.eqb_eq in H. destruct e as [[a b] c], f as [[a' b'] c']. unfold left_of, right_of, cost_of in H. cbn [fst snd] in H. destruct H as [[-> ->] ->]. exact Hf.
  - change (map left_of (all8 605)) with (zrange 0 16). apply nodup_zrange.
  - change (map right_of (all8 605)) with (zrange 0 16). apply nodup_zrange.
  - intros e E. assert (L : In (left_of e) (zrange 0 16)) by (change (zrange 0 16) with (map left_of (all8 605)); apply in_map; exact E). assert (M : In (right_of e) (zrange 0 16)) by (change (zrange 0 16) with (map right_of (all8 605)); apply in_map; exact E). apply in_zrange in L, M. lia.
Qed.
(* identical masks are matched in full with some draws and not with others *)
Theorem C117_draws_refuted : exists t w o o' sol', segm t = gt t /\ fair_out (sn t) (gn t) o /\ fair_out (sn t) (gn t) o' /\
  cheapest (sn t + gn t) (task_graph t w o') sol' /\ indiv_tp t sol' = count (gt t) (all_px t) /\ forall sol, cheapest (sn t + gn t) (task_graph t w o) sol -> indiv_tp t sol < count (gt t) (all_px t).
Proof.
  assert (F : fair row8) by (split; cbn; lia). assert (FR := task_fair_real row8 F). change (Z.of_nat (length (nodes_segm row8))) with 8 in FR. change (Z.of_nat (length (nodes_gt row8))) with 8 in FR.
  destruct (C117_six row8 605 ltac:(cbn; lia) ltac:(cbn; lia) eq_refl ltac:(vm_compute; discriminate)) as (o & O & S). exists row8, 605, o, turn, (all8 605). split; [reflexivity|]. split; [exact O|]. split; [exact turn_fair|]. split; [split; [exact all8_perfect|]|split; [reflexivity|]].
  - intros m P. change (sn row8 + gn row8) with (8 + 8) in P. assert (C := recorded_count 8 8 605 turn _ m ltac:(lia) ltac:(lia) turn_fair FR P). assert (L : 605 * (Z.of_nat (length m) - Z.of_nat (length (recorded 8 8 m))) <= cost m).
    { apply cost_low; [lia| |]; intros e E; apply (proj1 P) in E; apply (in_graph 8 8 605 turn _ e ltac:(lia) ltac:(lia) turn_fair FR) in E; destruct E as [(E & _)|E]; try lia; apply (proj2 FR) in E; lia. }
    destruct P as (_ & P & _). change (cost (all8 605)) with 4840. unfold edge in *. lia.
  - intros sol [P _]. specialize (S sol P). change (count (gt row8) (all_px row8)) with 8. lia.
Qed.
Print Assumptions C117_draws_refuted.

Example C117_ex_edges : let t := {| rows := 2; cols := 3; radius := 2; dist2 := 2; segm := fun p => snd p =? 1; gt := fun p => (fst p =? 0) && negb (snd p =? 1) |} in
  nodes_segm t = [(0, 1); (1, 1)] /\ nodes_gt t = [(0, 0); (0, 2)] /\ real_edges t = [(0, 0, 100); (1, 0, 141); (0, 1, 100); (1, 1, 141)].
Proof. repeat split; reflexivity. Qed.
