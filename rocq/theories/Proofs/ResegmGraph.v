(* The table of memberships follows the numbering of the duals as long as there are no temporal cliques. *)
From Coq Require Import ZArith List Bool Lia Permutation.
From Verif Require Import Lib.Grid Spec.FusionTerms Model.FusionTerms Proofs.FusionTerms Model.StereoMoves Model.PrimalDual Spec.PrimalDual Proofs.GrayCode Proofs.PrimalDual Model.ResegmGraph Spec.ResegmGraph.
Import ListNotations.
Local Open Scope Z_scope.

Lemma in_pairs s i c : In c (pairs s i) -> exists j w, c = Clique [i; j] (pair_cost w) /\ valid s j = true /\
  ((j = i + scols s /\ row_of s i + 1 < srows s /\ w = below_cost s i) \/ (j = i + 1 /\ col_of s i + 1 < scols s /\ w = right_cost s i)).
Proof.
  unfold pairs. rewrite in_app_iff. intros [H|H].
  - destruct ((row_of s i + 1 <? srows s) && valid s (i + scols s)) eqn:E; [| destruct H ]. destruct H as [<-|[]]. apply andb_true_iff in E. destruct E as [E1 E2]. exists (i + scols s), (below_cost s i). split; [ reflexivity |]. split; [ exact E2 |]. left. split; [ reflexivity |]. split; [ lia | reflexivity ].
  - destruct ((col_of s i + 1 <? scols s) && valid s (i + 1)) eqn:E; [| destruct H ]. destruct H as [<-|[]]. apply andb_true_iff in E. destruct E as [E1 E2]. exists (i + 1), (right_cost s i). split; [ reflexivity |]. split; [ exact E2 |]. right. split; [ reflexivity |]. split; [ lia | reflexivity ].
Qed.
Lemma in_temporal s i c : In c (temporal s i) -> c = Clique [followed s i; i] (temporal_pair_cost (temporal_cost s i)) /\ linked s i = true.
Proof. unfold temporal. destruct (linked s i); [| intros [] ]. intros [<-|[]]. auto. Qed.

Section Scene.
Variable s : scene.
Hypothesis Hr : 0 < srows s.
Hypothesis Hc : 0 < scols s.
Lemma split_index i : i = (i / scols s / srows s * srows s + row_of s i) * scols s + col_of s i /\ 0 <= row_of s i < srows s /\ 0 <= col_of s i < scols s.
Proof.
  unfold row_of, col_of. pose proof (Z.div_mod i (scols s) ltac:(lia)). pose proof (Z.div_mod (i / scols s) (srows s) ltac:(lia)). pose proof (Z.mod_pos_bound i (scols s) Hc). pose proof (Z.mod_pos_bound (i / scols s) (srows s) Hr). split; [ nia | lia ].
Qed.
Lemma join_index q r c : 0 <= r < srows s -> 0 <= c < scols s -> let i := (q * srows s + r) * scols s + c in i / scols s / srows s = q /\ row_of s i = r /\ col_of s i = c.
Proof.
  intros Br Bc i. assert (E : i / scols s = q * srows s + r) by (symmetry; apply Z.div_unique with c; [ lia | unfold i; ring ]). unfold row_of, col_of. rewrite E. split; [ symmetry; apply Z.div_unique with r; [ lia | ring ] |]. split.
  - symmetry. apply Z.mod_unique with q; [ lia | ring ].
  - symmetry. apply Z.mod_unique with (q * srows s + r); [ lia | unfold i; ring ].
Qed.
Lemma below_layer i : row_of s i + 1 < srows s -> layer_of s (i + scols s) = layer_of s i.
Proof.
  intro H. destruct (split_index i) as (E & Br & Bc). unfold layer_of. replace (i + scols s) with ((i / scols s / srows s * srows s + (row_of s i + 1)) * scols s + col_of s i) by (rewrite E at 4; ring). destruct (join_index (i / scols s / srows s) (row_of s i + 1) (col_of s i)) as (-> & _); [ lia | lia | reflexivity ].
Qed.
Lemma right_layer i : col_of s i + 1 < scols s -> layer_of s (i + 1) = layer_of s i.
Proof.
  intro H. destruct (split_index i) as (E & Br & Bc). unfold layer_of. replace (i + 1) with ((i / scols s / srows s * srows s + row_of s i) * scols s + (col_of s i + 1)) by (rewrite E at 4; ring). destruct (join_index (i / scols s / srows s) (row_of s i) (col_of s i + 1)) as (-> & _); [ lia | lia | reflexivity ].
Qed.
Lemma clamp_bound v n : 0 < n -> 0 <= clamp v n < n.
Proof. unfold clamp. lia. Qed.
Lemma followed_spec i : let p := motion s (cam_of s i) (row_of s i) (col_of s i) in
  followed s i / scols s / srows s = i / scols s / srows s - 1 /\ row_of s (followed s i) = clamp (fst p) (srows s) /\ col_of s (followed s i) = clamp (snd p) (scols s).
Proof.
  cbv zeta. destruct (split_index i) as (E & Br & Bc). unfold followed. cbv zeta. set (p := motion s _ _ _). pose proof (clamp_bound (fst p) (srows s) Hr). pose proof (clamp_bound (snd p) (scols s) Hc).
  match goal with |- ?a / _ / _ = _ /\ _ => assert (X : a = ((i / scols s / srows s - 1) * srows s + clamp (fst p) (srows s)) * scols s + clamp (snd p) (scols s)) end; [ rewrite E at 1; ring |]. rewrite X. now apply join_index.
Qed.
Lemma followed_layer i : layer_of s i = 1 -> layer_of s (followed s i) = 0 /\ cam_of s (followed s i) = cam_of s i.
Proof.
  unfold layer_of, cam_of. destruct (followed_spec i) as (-> & _). intro H. pose proof (Z.div_mod (i / scols s / srows s) 2 ltac:(lia)). set (q := i / scols s / srows s) in *. split.
  - symmetry. apply Z.mod_unique with (q / 2); lia.
  - symmetry. apply Z.div_unique with 0; lia.
Qed.
Lemma in_nodes i : In i (nodes s) <-> 0 <= i < 4 * srows s * scols s /\ valid s i = true.
Proof. unfold nodes. rewrite filter_In, in_zrange, Z.add_0_l. reflexivity. Qed.
Lemma node_quot i : 0 <= i < 4 * srows s * scols s <-> 0 <= i / scols s / srows s < 4.
Proof. destruct (split_index i) as (E & Br & Bc). set (q := i / scols s / srows s) in *. split; intro H; nia. Qed.
Lemma nodup_nodes : NoDup (nodes s).
Proof. apply NoDup_filter, nodup_zseq. Qed.

Definition weights : Prop := forall i, 0 <= below_cost s i /\ 0 <= right_cost s i /\ 0 <= temporal_cost s i.
Lemma pair_in i j w : In i (nodes s) -> In (Clique [i; j] w) (pairs s i) -> In j (nodes s) /\ layer_of s j = layer_of s i /\ j <> i.
Proof.
  intros Hi H. apply in_pairs in H. destruct H as (j' & w' & E & V & D). inversion E; subst j' w. clear E. apply in_nodes in Hi. destruct Hi as [Hi _]. rewrite node_quot in Hi. destruct (split_index i) as (E & Br & Bc). destruct D as [(-> & D & _)|(-> & D & _)].
  - split; [| split; [ now apply below_layer | lia ] ]. apply in_nodes. split; [| exact V ]. apply node_quot. replace (i + scols s) with ((i / scols s / srows s * srows s + (row_of s i + 1)) * scols s + col_of s i) by (rewrite E at 4; ring). destruct (join_index (i / scols s / srows s) (row_of s i + 1) (col_of s i)) as (-> & _); lia.
  - split; [| split; [ now apply right_layer | lia ] ]. apply in_nodes. split; [| exact V ]. apply node_quot. replace (i + 1) with ((i / scols s / srows s * srows s + row_of s i) * scols s + (col_of s i + 1)) by (rewrite E at 4; ring). destruct (join_index (i / scols s / srows s) (row_of s i) (col_of s i + 1)) as (-> & _); lia.
Qed.
Lemma linked_spec i : linked s i = true -> 1 <= frames s /\ layer_of s i = 1 /\ valid s (followed s i) = true.
Proof. unfold linked. rewrite !andb_true_iff. intros [[[[A B] _] _] D]. split; [ lia |]. split; [ lia | exact D ]. Qed.
Lemma followed_in i : In i (nodes s) -> linked s i = true -> In (followed s i) (nodes s) /\ layer_of s (followed s i) = 0.
Proof.
  intros Hi L. apply linked_spec in L. destruct L as (_ & L1 & V). split; [| now apply followed_layer ]. apply in_nodes in Hi. destruct Hi as [Hi _]. apply in_nodes. split; [| exact V ]. rewrite node_quot in *. destruct (followed_spec i) as (-> & _). unfold layer_of in L1. pose proof (Z.div_mod (i / scols s / srows s) 2 ltac:(lia)). pose proof (Z.div_pos (i / scols s / srows s) 2). lia.
Qed.
(* the table after the pairs *)
Definition twos (c : clique) : Prop := exists a b w, c = Clique [a; b] w /\ a <> b.
Lemma push_cliques cs : (forall c, In c cs -> twos c) -> forall m k, snd (fold_left push_clique cs (m, k)) = k + Z.of_nat (length cs) /\
  forall i, fst (fold_left push_clique cs (m, k)) i = m i ++ inc (numbered k cs) i.
Proof.
  induction cs as [|c cs IH]; intros T m k; cbn [fold_left]; [ split; [ cbn; lia | intro; cbn; now rewrite app_nil_r ] |]. destruct (T c (or_introl eq_refl)) as (a & b & w & -> & N).
  change (push_clique (m, k) {| cnodes := [a; b]; ccost := w |}) with (push (push m a (k, 0)) b (k, 1), k + 1). destruct (IH (fun c I => T c (or_intror I)) (push (push m a (k, 0)) b (k, 1)) (k + 1)) as [I1 I2]. split; [ rewrite I1; cbn [length]; lia |]. intro i. rewrite I2, numbered_cons. unfold inc at 2. cbn [flat_map]. fold (inc (numbered (k + 1) cs) i).
  cbn [fst snd]. change (csize {| cnodes := [a; b]; ccost := w |}) with 2. change (zrange 0 2) with [0; 1]. cbn [filter]. change (node_at {| cnodes := [a; b]; ccost := w |} 0) with a. change (node_at {| cnodes := [a; b]; ccost := w |} 1) with b. unfold push. rewrite (Z.eqb_sym a), (Z.eqb_sym b). rewrite app_assoc. f_equal. destruct (i =? a) eqn:A, (i =? b) eqn:B; cbn [map app]; try (exfalso; lia); rewrite ?app_nil_r; reflexivity.
Qed.
Lemma pairs_twos c : In c (flat_map (pairs s) (nodes s)) -> twos c.
Proof.
  intro H. apply in_flat_map in H. destruct H as (i & Hi & H). destruct (in_pairs s i c H) as (j & w & -> & _). exists i, j, (pair_cost w). split; [ reflexivity |]. apply pair_in in H; [| exact Hi ]. lia.
Qed.
Lemma graph_cliques order : all_cliques (resegm_graph s order) = flat_map (fun i => pairs s i ++ temporal s i) (nodes s).
Proof. reflexivity. Qed.
Lemma first_frame_cliques : frames s < 1 -> flat_map (fun i => pairs s i ++ temporal s i) (nodes s) = flat_map (pairs s) (nodes s).
Proof.
  intro F. apply flat_map_ext. intro i. unfold temporal, linked. replace (1 <=? frames s) with false by lia. cbn [andb]. apply app_nil_r.
Qed.
Lemma no_temporal_cliques : (forall i, In i (nodes s) -> linked s i = false) -> flat_map (fun i => pairs s i ++ temporal s i) (nodes s) = flat_map (pairs s) (nodes s).
Proof.
  intro F. induction (nodes s) as [|i l IH]; [ reflexivity |]. cbn [flat_map]. rewrite IH by (intros j J; apply F; now right). f_equal. unfold temporal. rewrite (F i (or_introl eq_refl)). apply app_nil_r.
Qed.
Lemma no_temporal_fold order st : (forall i, In i order -> linked s i = false) -> fold_left (push_temporal s) order st = st.
Proof. revert st. induction order as [|i l IH]; intros st H; [ reflexivity |]. cbn [fold_left]. unfold push_temporal at 2. rewrite (H i (or_introl eq_refl)). apply IH. intros j J. apply H. now right. Qed.
Lemma exact_without order : Permutation order (nodes s) -> (forall i, In i (nodes s) -> linked s i = false) -> exact_members (resegm_graph s order).
Proof.
  intros P F. intros i Hi. cbn [members resegm_graph]. unfold member_table. rewrite no_temporal_fold by (intros j J; apply F; now apply (Permutation_in _ P)). destruct (push_cliques (flat_map (pairs s) (nodes s)) pairs_twos (fun _ => []) 0) as [_ E]. rewrite E. cbn [app]. split; [ apply nodup_inc, numbered_nodup |]. intros r d. rewrite <- (inc_incident (resegm_graph s order) i r d), graph_cliques, (no_temporal_cliques F). reflexivity.
Qed.

(* the table with temporal cliques *)
Lemma push_keeps m a p i q : In q (m i) -> In q (push m a p i).
Proof. unfold push. destruct (i =? a); [ rewrite in_app_iff; auto | auto ]. Qed.
Lemma push_here m a p : In p (push m a p a).
Proof. unfold push. rewrite Z.eqb_refl, in_app_iff. right. now left. Qed.
Lemma fold_keeps order : forall st i q, In q (fst st i) -> In q (fst (fold_left (push_temporal s) order st) i).
Proof.
  induction order as [|j l IH]; intros st i q H; [ exact H |]. cbn [fold_left]. apply IH. unfold push_temporal. destruct (linked s j); [| exact H ]. destruct st as [m n]. cbn [push_pair fst] in *. now apply push_keeps, push_keeps.
Qed.
Lemma fold_links order i : In i order -> linked s i = true -> forall st, exists n, In (n, 0) (fst (fold_left (push_temporal s) order st) i) /\ In (n, 1) (fst (fold_left (push_temporal s) order st) (followed s i)).
Proof.
  induction order as [|j l IH]; intros H L st; [ destruct H |]. cbn [fold_left]. destruct H as [->|H]; [| now apply IH ]. unfold push_temporal. fold (push_temporal s). rewrite L. destruct st as [m n]. exists n. cbn [push_pair]. split; apply fold_keeps; cbn [fst]; [ apply push_keeps, push_here | apply push_here ].
Qed.
Lemma inexact_with order i : Permutation order (nodes s) -> In i (nodes s) -> linked s i = true -> ~ exact_members (resegm_graph s order).
Proof.
  intros P Hi L X. destruct (followed_in i Hi L) as [Hf Lf]. pose proof (linked_spec i L) as (_ & Li & _).
  destruct (fold_links order i (Permutation_in _ (Permutation_sym P) Hi) L (fold_left push_clique (flat_map (pairs s) (nodes s)) (fun _ => [], 0))) as (n & M0 & M1).
  destruct (X i Hi) as [_ Xi]. destruct (X (followed s i) Hf) as [_ Xf]. apply Xi in M0. apply Xf in M1. destruct M0 as (c & R & E & _ & N0). destruct M1 as (c' & _ & E' & _ & N1). rewrite E in E'. injection E' as <-.
  apply nth_error_In in E. rewrite graph_cliques in E. apply in_flat_map in E. destruct E as (j & Hj & Ic). apply in_app_iff in Ic. destruct Ic as [Ic|Ic].
  - destruct (in_pairs s j c Ic) as (k & w & -> & _). apply (pair_in j k) in Ic; [| exact Hj ]. destruct Ic as (_ & Q & _). unfold node_at in N0, N1; cbn [cnodes] in N0, N1; change (Z.to_nat 0) with 0%nat in N0; change (Z.to_nat 1) with 1%nat in N1; cbn [nth] in N0, N1. rewrite N1, N0 in Q. lia.
  - apply in_temporal in Ic. destruct Ic as [-> Lj]. unfold node_at in N0, N1; cbn [cnodes] in N0, N1; change (Z.to_nat 0) with 0%nat in N0; change (Z.to_nat 1) with 1%nat in N1; cbn [nth] in N0, N1. destruct (followed_in j Hj Lj) as [_ Q]. rewrite N0 in Q. lia.
Qed.
Lemma graph_nodes_ok order c : In c (all_cliques (resegm_graph s order)) -> cnodes c <> [] /\ forall i, In i (cnodes c) -> In i (nodes s).
Proof.
  rewrite graph_cliques. intro H. apply in_flat_map in H. destruct H as (i & Hi & H). apply in_app_iff in H. destruct H as [H|H].
  - destruct (in_pairs s i c H) as (j & w & -> & _). apply (pair_in i j) in H; [| exact Hi ]. cbn [cnodes]. split; [ discriminate |]. intros k [<-|[<-|[]]]; tauto.
  - apply in_temporal in H. destruct H as [-> L]. destruct (followed_in i Hi L) as [Hf _]. cbn [cnodes]. split; [ discriminate |]. intros k [<-|[<-|[]]]; tauto.
Qed.
Lemma lxor_bit a b : 0 <= a < 2 -> 0 <= b < 2 -> 0 <= Z.lxor a b.
Proof. intros. apply Z.lxor_nonneg. lia. Qed.
Lemma graph_proper order : weights -> proper (resegm_graph s order).
Proof.
  intro W. split; [ apply nodup_nodes |]. split; [ reflexivity |]. intros c H. destruct (graph_nodes_ok order c H) as [N1 N2]. split; [ exact N1 |]. split; [ exact N2 |]. intros x L. rewrite graph_cliques in H. apply in_flat_map in H. destruct H as (i & Hi & H). destruct (W i) as (W1 & W2 & W3). apply in_app_iff in H. destruct H as [H|H].
  - destruct (in_pairs s i c H) as (j & w & -> & _ & D). cbn [ccost cnodes map pair_cost]. apply Z.mul_nonneg_nonneg; [| destruct D as [(_ & _ & ->)|(_ & _ & ->)]; assumption ]. cbn [cnodes] in N2. apply lxor_bit; apply L; apply N2; cbn; tauto.
  - apply in_temporal in H. destruct H as [-> _]. cbn [ccost cnodes map temporal_pair_cost]. destruct (_ =? _); lia.
Qed.
End Scene.
(* --- links --- *)
Lemma clamp_into v n : 0 < n -> clamp v n = into v n.
Proof. intro H. unfold clamp, into. destruct (Z.ltb_spec v 0), (Z.leb_spec n v); lia. Qed.
Lemma even_mod v : (v mod 2 =? 0) = Z.even v.
Proof. rewrite Zmod_even. destruct (Z.even v); reflexivity. Qed.
Lemma link_iff s : sound_scene s -> has_link s <-> exists i, In i (nodes s) /\ linked s i = true.
Proof.
  intros (Hr & Hc & _). split.
  - intros (F & cam & row & col & Bc & Br & Bl & Er & El & M & T). destruct (join_index s (cam * 2 + 1) row col Br Bl) as (Q & R & C). set (i := ((cam * 2 + 1) * srows s + row) * scols s + col) in *.
    assert (Cam : cam_of s i = cam) by (unfold cam_of; rewrite Q; symmetry; apply Z.div_unique with 1; lia). assert (Lay : layer_of s i = 1) by (unfold layer_of; rewrite Q; symmetry; apply Z.mod_unique with cam; lia). exists i. split.
    + apply in_nodes. split; [ apply node_quot; [ assumption | assumption | lia ] |]. unfold valid. now rewrite Cam, R, C.
    + unfold linked, valid. destruct (followed_layer s Hr Hc i Lay) as [_ ->]. destruct (followed_spec s Hr Hc i) as (_ & -> & ->). cbv zeta. rewrite Cam, Lay, R, C, !even_mod, Er, El, !clamp_into, T by assumption. now replace (1 <=? frames s) with true by lia.
  - intros (i & Hi & L). unfold linked in L. rewrite !andb_true_iff in L. destruct L as ((((F & Lay) & Er) & El) & V). apply Z.eqb_eq in Lay. rewrite even_mod in Er, El. apply in_nodes in Hi. destruct Hi as [Hi Vi]. apply (node_quot s Hr Hc) in Hi. destruct (split_index s Hr Hc i) as (_ & Br & Bl). split; [ lia |]. exists (cam_of s i), (row_of s i), (col_of s i).
    unfold valid in V. destruct (followed_layer s Hr Hc i Lay) as [E _]. rewrite (proj2 (followed_layer s Hr Hc i Lay)) in V. destruct (followed_spec s Hr Hc i) as (_ & E1 & E2). cbv zeta in E1, E2. rewrite E1, E2, !clamp_into in V by assumption.
    split; [ unfold cam_of; pose proof (Z.div_mod (i / scols s / srows s) 2 ltac:(lia)); pose proof (Z.mod_pos_bound (i / scols s / srows s) 2 ltac:(lia)); lia |]. tauto.
Qed.
Lemma exact_iff s order : sound_scene s -> Permutation order (nodes s) -> exact_members (resegm_graph s order) <-> ~ has_link s.
Proof.
  intros G P. pose proof G as (Hr & Hc & _). rewrite (link_iff s G). split.
  - intros X (i & Hi & L). exact (inexact_with s Hr Hc order i P Hi L X).
  - intro N. apply exact_without; [ assumption | assumption | exact P |]. intros i Hi. destruct (linked s i) eqn:L; [| reflexivity ]. exfalso. apply N. eauto.
Qed.
Lemma scene_proper s order : sound_scene s -> proper (resegm_graph s order).
Proof. intros (Hr & Hc & W). now apply graph_proper. Qed.

(* --- the energy --- *)
Lemma lxor_apart a b w : 0 <= a < 2 -> 0 <= b < 2 -> Z.lxor a b * w = if a =? b then 0 else w.
Proof. intros A B. assert (E : (a = 0 \/ a = 1) /\ (b = 0 \/ b = 1)) by lia. assert (X : Z.lxor a b = if a =? b then 0 else 1) by (destruct E as [[->| ->] [->| ->]]; reflexivity). rewrite X. destruct (a =? b); lia. Qed.
Lemma total_flat {A} (f : A -> Z) (g : Z -> list A) l : total (map f (flat_map g l)) = total (map (fun i => total (map f (g i))) l).
Proof. induction l as [|a l IH]; [ reflexivity |]. cbn [flat_map map]. rewrite map_app, total_app, IH. reflexivity. Qed.
Lemma total_both (f g : Z -> Z) l : total (map f l) + total (map g l) = total (map (fun i => f i + g i) l).
Proof. induction l as [|a l IH]; [ reflexivity |]. cbn [map]. unfold total in *. cbn [fold_right]. lia. Qed.

Lemma node_label s order x c i : sound_scene s -> labelling (resegm_graph s order) x -> In c (all_cliques (resegm_graph s order)) -> In i (cnodes c) -> 0 <= x i < 2.
Proof. intros (Hr & Hc & _) L I J. apply L. exact (proj2 (graph_nodes_ok s Hr Hc order c I) i J). Qed.
Lemma owned_in s order i c : In i (nodes s) -> In c (pairs s i ++ temporal s i) -> In c (all_cliques (resegm_graph s order)).
Proof. intros I J. unfold all_cliques. apply in_flat_map. exists i. split; [ exact I | exact J ]. Qed.
Lemma plane_eq s i : sound_scene s -> i / (scols s * srows s) = i / scols s / srows s.
Proof. intros (Hr & Hc & _). rewrite Z.div_div by lia. reflexivity. Qed.
Lemma node_costs s order x i : sound_scene s -> labelling (resegm_graph s order) x -> In i (nodes s) ->
  label_cost s i (x i) + total (map (fun c => ccost c (map x (cnodes c))) (pairs s i ++ temporal s i)) = costs_at s x i.
Proof.
  intros G L I. pose proof G as (Hr & Hc & _). unfold costs_at. cbv zeta. rewrite (plane_eq s i G). fold (row_of s i). fold (col_of s i).
  assert (Xi : 0 <= x i < 2) by now apply L.
  destruct (split_index s Hr Hc i) as (E & Br & Bc). set (q := i / scols s / srows s) in *. rewrite map_app, total_app.
  assert (Vb : row_of s i + 1 < srows s -> valid s (i + scols s) = mask_of s (q / 2) (row_of s i + 1) (col_of s i)).
  { intro B. replace (i + scols s) with ((q * srows s + (row_of s i + 1)) * scols s + col_of s i) by lia. unfold valid, cam_of. destruct (join_index s q (row_of s i + 1) (col_of s i)) as (-> & -> & ->); [ lia | lia |]. reflexivity. }
  assert (Vr : col_of s i + 1 < scols s -> valid s (i + 1) = mask_of s (q / 2) (row_of s i) (col_of s i + 1)).
  { intro B. replace (i + 1) with ((q * srows s + row_of s i) * scols s + (col_of s i + 1)) by lia. unfold valid, cam_of. destruct (join_index s q (row_of s i) (col_of s i + 1)) as (-> & -> & ->); [ lia | lia |]. reflexivity. }
  assert (P : total (map (fun c => ccost c (map x (cnodes c))) (pairs s i)) =
    (if (row_of s i <? srows s - 1) && mask_of s (q / 2) (row_of s i + 1) (col_of s i) then apart x i (i + scols s) (below_cost s i) else 0) +
    (if (col_of s i <? scols s - 1) && mask_of s (q / 2) (row_of s i) (col_of s i + 1) then apart x i (i + 1) (right_cost s i) else 0)).
  { assert (Q : forall c, In c (pairs s i) -> forall j, In j (cnodes c) -> 0 <= x j < 2) by (intros c Ic j Ij; apply (node_label s order x c j G L); [ apply (owned_in s order i); [ exact I | apply in_or_app; now left ] | exact Ij ]).
    revert Q. unfold pairs. rewrite map_app, total_app. intro Q.
    replace (row_of s i <? srows s - 1) with (row_of s i + 1 <? srows s) by (destruct (Z.ltb_spec (row_of s i + 1) (srows s)), (Z.ltb_spec (row_of s i) (srows s - 1)); lia).
    replace (col_of s i <? scols s - 1) with (col_of s i + 1 <? scols s) by (destruct (Z.ltb_spec (col_of s i + 1) (scols s)), (Z.ltb_spec (col_of s i) (scols s - 1)); lia).
    f_equal.
    - destruct (row_of s i + 1 <? srows s) eqn:B; [| reflexivity ]. rewrite Z.ltb_lt in B. rewrite <- (Vb B). cbn [andb] in *. destruct (valid s (i + scols s)); [| reflexivity ].
      unfold total. cbn [map fold_right ccost cnodes pair_cost]. rewrite lxor_apart; [ unfold apart; destruct (x i =? x (i + scols s)); lia | exact Xi |]. apply (Q (Clique [i; i + scols s] (pair_cost (below_cost s i)))); [ now left | right; now left ].
    - destruct (col_of s i + 1 <? scols s) eqn:B; [| reflexivity ]. rewrite Z.ltb_lt in B. rewrite <- (Vr B). cbn [andb] in *. destruct (valid s (i + 1)); [| reflexivity ].
      unfold total. cbn [map fold_right ccost cnodes pair_cost]. rewrite lxor_apart; [ unfold apart; destruct (x i =? x (i + 1)); lia | exact Xi |]. apply (Q (Clique [i; i + 1] (pair_cost (right_cost s i)))); [ apply in_or_app; right; now left | right; now left ]. }
  assert (T : total (map (fun c => ccost c (map x (cnodes c))) (temporal s i)) =
    (let p := motion s (q / 2) (row_of s i) (col_of s i) in
     let j := (q - 1) * (scols s * srows s) + into (fst p) (srows s) * scols s + into (snd p) (scols s) in
     if (1 <=? frames s) && Z.odd q && Z.even (row_of s i) && Z.even (col_of s i) && mask_of s (q / 2) (into (fst p) (srows s)) (into (snd p) (scols s)) then apart x i j (temporal_cost s i) else 0)).
  { cbv zeta. unfold temporal, linked. rewrite !even_mod. assert (O : (layer_of s i =? 1) = Z.odd q) by (unfold layer_of; fold q; rewrite Zmod_odd; destruct (Z.odd q); reflexivity). rewrite O.
    destruct (1 <=? frames s); [| reflexivity ]. destruct (Z.odd q) eqn:Oq; [| reflexivity ]. destruct (Z.even (row_of s i)); [| reflexivity ]. destruct (Z.even (col_of s i)); [| reflexivity ]. cbn [andb].
    assert (Lay : layer_of s i = 1) by now apply Z.eqb_eq. destruct (followed_layer s Hr Hc i Lay) as [_ C]. destruct (followed_spec s Hr Hc i) as (F0 & F1 & F2). cbv zeta in F1, F2. replace (valid s (followed s i)) with (mask_of s (q / 2) (into (fst (motion s (q / 2) (row_of s i) (col_of s i))) (srows s)) (into (snd (motion s (q / 2) (row_of s i) (col_of s i))) (scols s))).
    2: { unfold valid. rewrite C, F1, F2, !clamp_into by assumption. unfold cam_of. fold q. reflexivity. }
    match goal with |- context [if mask_of ?a ?b ?d ?e then _ else _] => destruct (mask_of a b d e); [| reflexivity ] end. unfold total. cbn [map fold_right ccost cnodes temporal_pair_cost].
    assert (J : followed s i = (q - 1) * (scols s * srows s) + into (fst (motion s (q / 2) (row_of s i) (col_of s i))) (srows s) * scols s + into (snd (motion s (q / 2) (row_of s i) (col_of s i))) (scols s)).
    { destruct (split_index s Hr Hc (followed s i)) as (E' & _). rewrite E', F0, F1, F2, !clamp_into by assumption. unfold cam_of. fold q. ring. }
    rewrite <- J. unfold apart. rewrite Z.eqb_sym. destruct (x i =? x (followed s i)); lia. }
  cbv zeta in T. rewrite P, T. lia.
Qed.
Lemma energy_sum s order x : sound_scene s -> labelling (resegm_graph s order) x -> energy (resegm_graph s order) x = total (map (costs_at s x) (nodes s)).
Proof.
  intros G L. unfold energy, all_cliques. cbn [gnodes owned unary resegm_graph]. rewrite total_flat, total_both. f_equal. apply map_ext_in. intros i I. now apply (node_costs s order).
Qed.

(* only the nodes of the graph count *)
Lemma mask_ext S T c : (forall i, In i (cnodes c) -> S i = T i) -> mask S c = mask T c.
Proof. intro H. unfold mask. apply total_ext. intros d Hd. apply in_zrange in Hd. now rewrite H by (apply node_at_in; lia). Qed.
Lemma value_ext g p S T : (forall i, In i (gnodes g) -> S i = T i) -> (forall ct i, In ct (tables p) -> In i (cnodes (fst ct)) -> In i (gnodes g)) -> value g p S = value g p T.
Proof.
  intros E N. unfold value. f_equal; apply total_ext.
  - intros i Hi. now rewrite (E i Hi).
  - intros ct Hc. f_equal. apply mask_ext. intros i Hi. apply E, (N ct i Hc Hi).
Qed.
Fixpoint pick (l : list Z) (bs : list bool) (i : Z) : bool := match l, bs with a :: l, b :: bs => if i =? a then b else pick l bs i | _, _ => false end.
Lemma pick_map S l i : In i l -> pick l (map S l) i = S i.
Proof. induction l as [|a l IH]; [ intros [] |]. cbn [map pick In]. destruct (i =? a) eqn:E; [ apply Z.eqb_eq in E; now subst |]. intros [->|H]; [ lia | now apply IH ]. Qed.
Fixpoint bools (n : nat) : list (list bool) := match n with O => [[]] | Datatypes.S n => flat_map (fun l => [true :: l; false :: l]) (bools n) end.
Lemma in_bools l : In l (bools (length l)).
Proof. induction l as [|b l IH]; [ now left |]. cbn [length bools]. apply in_flat_map. exists l. split; [ exact IH |]. destruct b; cbn; auto. Qed.
Lemma least g p S : (forall ct i, In ct (tables p) -> In i (cnodes (fst ct)) -> In i (gnodes g)) ->
  forallb (fun bs => value g p S <=? value g p (pick (gnodes g) bs)) (bools (length (gnodes g))) = true -> forall T, value g p S <= value g p T.
Proof.
  intros N F T. rewrite forallb_forall in F. specialize (F (map T (gnodes g))). rewrite <- (map_length T) in F. specialize (F (in_bools _)). apply Z.leb_le in F. rewrite (value_ext g p T (pick (gnodes g) (map T (gnodes g)))); [ exact F | | exact N ]. intros i Hi. now rewrite pick_map.
Qed.
