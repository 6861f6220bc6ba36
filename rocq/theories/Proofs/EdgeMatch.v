From Coq Require Import ZArith List Bool Lia.
From Verif Require Import Lib.Grid Model.EdgeMatch Spec.EdgeMatch.
Import ListNotations.
Open Scope Z_scope.

(* lists *)
Lemma nodup_app {A} (l m : list A) : NoDup l -> NoDup m -> (forall x, In x l -> In x m -> False) -> NoDup (l ++ m).
Proof.
  intros L M D. induction L as [|a l N L IH]; cbn [app]; [exact M|]. constructor.
  - intros H. apply in_app_or in H. destruct H as [H|H]; [exact (N H)|exact (D a (or_introl eq_refl) H)].
  - apply IH. intros x X Y. exact (D x (or_intror X) Y).
Qed.
Lemma nodup_flat_map {A B} (f : A -> list B) (l : list A) : NoDup l -> (forall a, In a l -> NoDup (f a)) -> (forall a b x, In a l -> In b l -> In x (f a) -> In x (f b) -> a = b) -> NoDup (flat_map f l).
Proof.
  intros L. induction L as [|a l N L IH]; intros F D; cbn [flat_map]; [constructor|]. apply nodup_app.
  - apply F. left. reflexivity.
  - apply IH; [intros b Hb; apply F; right; exact Hb|]. intros b c x Hb Hc. apply D; right; assumption.
  - intros x X Y. apply in_flat_map in Y. destruct Y as (b & Hb & Y). assert (a = b) by (apply (D a b x); [left; reflexivity|right; exact Hb|exact X|exact Y]). subst b. exact (N Hb).
Qed.
Lemma nodup_map {A B} (f : A -> B) (l : list A) : (forall x y, In x l -> In y l -> f x = f y -> x = y) -> NoDup l -> NoDup (map f l).
Proof.
  intros I N. induction N as [|a l N L IH]; cbn [map]; [constructor|]. constructor.
  - intros H. apply in_map_iff in H. destruct H as (b & E & Hb). assert (b = a) by (apply I; [right; exact Hb|left; reflexivity|exact E]). subst b. exact (N Hb).
  - apply IH. intros x y X Y. apply I; right; assumption.
Qed.
Lemma flat_map_size {A B} (f : A -> list B) (l : list A) k : (forall a, In a l -> Z.of_nat (length (f a)) = k) -> Z.of_nat (length (flat_map f l)) = k * Z.of_nat (length l).
Proof. induction l as [|a l IH]; intros H; cbn [flat_map length]; [lia|]. rewrite app_length, Nat2Z.inj_add, (H a (or_introl eq_refl)), IH by (intros b Hb; apply H; right; exact Hb). lia. Qed.
Lemma zrange_size a n : 0 <= n -> Z.of_nat (length (zrange a n)) = n.
Proof. intros H. unfold zrange. rewrite zseq_length. lia. Qed.
Lemma nodup_zrange a n : NoDup (zrange a n).
Proof. apply nodup_zseq. Qed.

(* pixels *)
Lemma pixel_eqb_eq p q : pixel_eqb p q = true <-> p = q.
Proof. unfold pixel_eqb. destruct p as [a b], q as [c d]. cbn [fst snd]. rewrite andb_true_iff, !Z.eqb_eq. split; [intros [-> ->]; reflexivity|intros E; injection E; auto]. Qed.
Definition fair (t : task) : Prop := 0 <= radius t /\ dist2 t <= radius t * radius t.
Lemma near_iff t p q : fair t -> In p (near t q) <-> In p (all_px t) /\ within (dist2 t) p q.
Proof.
  intros [R D]. unfold near, all_px, within. rewrite filter_In, in_grid, in_map_iff. rewrite !andb_true_iff, !Z.leb_le, !Z.ltb_lt. split; [intros (_ & H); lia|]. intros ((A & B) & C). split; [|lia]. exists (fst p - fst q, snd p - snd q). split; [destruct p; cbn [fst snd]; f_equal; lia|]. rewrite in_grid. cbn [fst snd].
  assert (X : forall x y, x * x + y * y <= radius t * radius t -> - radius t <= x <= radius t). { intros x y H. assert (0 <= y * y) by nia. nia. }
  assert (X1 := X (fst p - fst q) (snd p - snd q) ltac:(lia)). assert (X2 := X (snd p - snd q) (fst p - fst q) ltac:(lia)). lia.
Qed.
Lemma matchable_gt_iff t q : fair t -> In q (all_px t) -> matchable_gt t q = true <-> gt t q = true /\ exists p, In p (all_px t) /\ segm t p = true /\ within (dist2 t) p q.
Proof.
  intros F Hq. unfold matchable_gt. rewrite andb_true_iff, existsb_exists. split; intros [A (p & H)]; (split; [exact A|]); exists p; rewrite near_iff in * by exact F; tauto.
Qed.
Lemma matchable_segm_iff t p : fair t -> In p (all_px t) -> matchable_segm t p = true <-> segm t p = true /\ exists q, In q (all_px t) /\ gt t q = true /\ within (dist2 t) p q.
Proof.
  intros F Hp. unfold matchable_segm. rewrite andb_true_iff, existsb_exists. split; intros [A (q & Q & H)]; (split; [exact A|]); exists q; (split; [exact Q|]).
  - apply andb_true_iff in H. destruct H as [H1 H2]. apply existsb_exists in H2. destruct H2 as (p' & P & E). apply pixel_eqb_eq in E. subst p'. apply near_iff in P; [|exact F]. tauto.
  - destruct H as [H1 H2]. rewrite H1. apply existsb_exists. exists p. split; [apply near_iff; auto|]. apply pixel_eqb_eq. reflexivity.
Qed.
Lemma place_nth l : forall p d, In p l -> 0 <= place p l < Z.of_nat (length l) /\ nth (Z.to_nat (place p l)) l d = p.
Proof.
  induction l as [|q l IH]; intros p d H; [destruct H|]. cbn [place length]. destruct (pixel_eqb p q) eqn:E.
  - apply pixel_eqb_eq in E. subst q. split; [lia|reflexivity].
  - destruct H as [->|H]; [rewrite (proj2 (pixel_eqb_eq p p) eq_refl) in E; discriminate|]. destruct (IH p d H) as [A B]. split; [lia|]. replace (Z.to_nat (1 + place p l)) with (S (Z.to_nat (place p l))) by lia. exact B.
Qed.
Lemma place_inj l p q : In p l -> In q l -> place p l = place q l -> p = q.
Proof. intros P Q E. rewrite <- (proj2 (place_nth l p (0, 0) P)), <- (proj2 (place_nth l q (0, 0) Q)), E. reflexivity. Qed.
Lemma place_of_nth l i d : NoDup l -> 0 <= i < Z.of_nat (length l) -> place (nth (Z.to_nat i) l d) l = i.
Proof.
  intros N H. assert (I : In (nth (Z.to_nat i) l d) l) by (apply nth_In; lia). destruct (place_nth l _ d I) as [A B]. assert (E := proj1 (NoDup_nth l d) N (Z.to_nat (place (nth (Z.to_nat i) l d) l)) (Z.to_nat i) ltac:(lia) ltac:(lia) B). lia.
Qed.
Lemma nodup_all_px t : NoDup (all_px t).
Proof. apply nodup_grid. Qed.
Lemma nodup_near t q : NoDup (near t q).
Proof. unfold near. apply NoDup_filter, nodup_map; [|apply nodup_grid]. intros [a b] [c d] _ _ E. cbn [fst snd] in E. injection E as E1 E2. f_equal; lia. Qed.
(* the distance of two nodes decides the edge *)
Definition gap (p q : pixel) : Z := (fst p - fst q) * (fst p - fst q) + (snd p - snd q) * (snd p - snd q).
Lemma real_edges_iff t e : fair t -> In e (real_edges t) <-> exists p q, In p (all_px t) /\ In q (all_px t) /\ segm t p = true /\ gt t q = true /\ within (dist2 t) p q /\ e = (place p (nodes_segm t), place q (nodes_gt t), weight (gap p q)).
Proof.
  intros F. unfold real_edges. rewrite in_flat_map. split.
  - intros (q & Q & H). apply filter_In in Q. destruct Q as [Q1 Q2]. apply in_map_iff in H. destruct H as (p & E & P). apply filter_In in P. destruct P as [P1 P2]. apply near_iff in P1; [|exact F]. destruct P1 as [P0 P1]. apply matchable_gt_iff in Q2; [|exact F|exact Q1]. apply matchable_segm_iff in P2; [|exact F|exact P0]. exists p, q. intuition.
  - intros (p & q & P & Q & SP & GQ & W & E). exists q. split; [apply filter_In; split; [exact Q|]; apply matchable_gt_iff; [exact F|exact Q|]; split; [exact GQ|]; exists p; auto|]. apply in_map_iff. exists p. split; [symmetry; exact E|]. apply filter_In. split; [apply near_iff; auto|]. apply matchable_segm_iff; [exact F|exact P|]. split; [exact SP|]. exists q. auto.
Qed.
Lemma in_nodes_segm t p q : fair t -> In p (all_px t) -> In q (all_px t) -> segm t p = true -> gt t q = true -> within (dist2 t) p q -> In p (nodes_segm t) /\ In q (nodes_gt t).
Proof.
  intros F P Q SP GQ W. split; apply filter_In; (split; [assumption|]); [apply matchable_segm_iff; [exact F|exact P|]; split; [exact SP|exists q; auto]|apply matchable_gt_iff; [exact F|exact Q|]; split; [exact GQ|exists p; auto]].
Qed.
Lemma real_edges_nodup t : fair t -> NoDup (map fst (real_edges t)).
Proof.
  intros F. unfold real_edges. rewrite flat_map_concat_map, concat_map, map_map, <- flat_map_concat_map. apply nodup_flat_map.
  - apply NoDup_filter, nodup_all_px.
  - intros q Q. rewrite map_map. cbn [fst]. apply nodup_map; [|apply NoDup_filter, nodup_near]. intros p p' P P' E. injection E as E. apply filter_In in P, P'. destruct P as [P1 P2], P' as [P1' P2']. apply near_iff in P1, P1'; try exact F. apply (place_inj (nodes_segm t)); [apply filter_In; tauto|apply filter_In; tauto|exact E].
  - intros q q' x Q Q' X X'. rewrite map_map in X, X'. apply in_map_iff in X, X'. destruct X as (p & E & _), X' as (p' & E' & _). cbn [fst] in E, E'. subst x. injection E' as _ E'. apply (place_inj (nodes_gt t)); [exact Q|exact Q'|symmetry; exact E'].
Qed.

(* the graph *)
Definition fair_out (s g : Z) (o : outliers) : Prop :=
  (forall i, 0 <= i < s -> selection (degree_side s) (s - 1) (out_segm o i)) /\ (forall j, 0 <= j < g -> selection (degree_side g) (g - 1) (out_gt o j)) /\ forall i, 0 <= i < Z.max s g -> selection (degree_mix s g) (Z.min s g) (out_mix o i).
Lemma skip_ok i j n : 0 <= j < n - 1 -> 0 <= skip i j < n /\ skip i j <> i.
Proof. intros H. unfold skip. destruct (Z.leb_spec i j); lia. Qed.
Lemma skip_inj i j k : skip i j = skip i k -> j = k.
Proof. unfold skip. destruct (Z.leb_spec i j), (Z.leb_spec i k); lia. Qed.
Lemma graph_size s g w o real : 0 <= s -> 0 <= g -> fair_out s g o -> Z.of_nat (length (graph s g w o real)) = graph_rows s g real.
Proof.
  intros S G (O1 & O2 & O3). unfold graph, graph_rows. rewrite !app_length, !Nat2Z.inj_add. unfold segm_outliers, gt_outliers, mixed, overlay_segm, overlay_gt.
  rewrite (flat_map_size _ (zrange 0 s) (degree_side s)), (flat_map_size _ (zrange 0 g) (degree_side g)), (flat_map_size _ (zrange 0 (Z.max s g)) (degree_mix s g)).
  - rewrite !map_length, !zrange_size by lia. lia.
  - intros i Hi. apply in_zrange in Hi. rewrite map_length. apply O3. lia.
  - intros i Hi. apply in_zrange in Hi. rewrite map_length. apply O2. lia.
  - intros i Hi. apply in_zrange in Hi. rewrite map_length. apply O1. lia.
Qed.
(* which kind an edge is of *)
Lemma in_segm_outliers s g w o e : fair_out s g o -> In e (segm_outliers s g w o) -> 0 <= left_of e < s /\ g <= right_of e < g + s /\ right_of e <> g + left_of e /\ cost_of e = w.
Proof.
  intros (O1 & _) H. apply in_flat_map in H. destruct H as (i & Hi & H). apply in_zrange in Hi. apply in_map_iff in H. destruct H as (j & <- & Hj). unfold left_of, right_of, cost_of. cbn [fst snd]. assert (A := skip_ok i j s (proj2 (proj2 (O1 i ltac:(lia))) j Hj)). lia.
Qed.
Lemma in_gt_outliers s g w o e : fair_out s g o -> In e (gt_outliers s g w o) -> s <= left_of e < s + g /\ 0 <= right_of e < g /\ left_of e <> s + right_of e /\ cost_of e = w.
Proof.
  intros (_ & O2 & _) H. apply in_flat_map in H. destruct H as (j & Hj & H). apply in_zrange in Hj. apply in_map_iff in H. destruct H as (i & <- & Hi). unfold left_of, right_of, cost_of. cbn [fst snd]. assert (A := skip_ok j i g (proj2 (proj2 (O2 j ltac:(lia))) i Hi)). lia.
Qed.
Lemma in_mixed s g w o e : fair_out s g o -> In e (mixed s g w o) -> s <= left_of e < s + g /\ g <= right_of e < g + s /\ cost_of e = w.
Proof.
  intros (_ & _ & O3) H. apply in_flat_map in H. destruct H as (i & Hi & H). apply in_zrange in Hi. apply in_map_iff in H. destruct H as (j & <- & Hj). assert (A := proj2 (proj2 (O3 i ltac:(lia))) j Hj). unfold left_of, right_of, cost_of. destruct (Z.ltb_spec s g); cbn [fst snd]; lia.
Qed.
Lemma in_overlay_segm s g w e : In e (overlay_segm s g w) -> 0 <= left_of e < s /\ right_of e = g + left_of e /\ cost_of e = w * 100.
Proof. intros H. apply in_map_iff in H. destruct H as (i & <- & Hi). apply in_zrange in Hi. unfold left_of, right_of, cost_of. cbn [fst snd]. lia. Qed.
Lemma in_overlay_gt s g w e : In e (overlay_gt s g w) -> 0 <= right_of e < g /\ left_of e = s + right_of e /\ cost_of e = w * 100.
Proof. intros H. apply in_map_iff in H. destruct H as (i & <- & Hi). apply in_zrange in Hi. unfold left_of, right_of, cost_of. cbn [fst snd]. lia. Qed.
Definition fair_real (s g : Z) (real : list edge) : Prop := NoDup (map fst real) /\ forall e, In e real -> 0 <= left_of e < s /\ 0 <= right_of e < g /\ 0 <= cost_of e.
Lemma in_graph s g w o real e : 0 <= s -> 0 <= g -> fair_out s g o -> fair_real s g real -> In e (graph s g w o real) ->
  (In e real /\ 0 <= left_of e < s /\ 0 <= right_of e < g) \/ (0 <= left_of e < s + g /\ 0 <= right_of e < s + g /\ (s <= left_of e \/ g <= right_of e) /\ (cost_of e = w \/ cost_of e = w * 100)).
Proof.
  intros S G O (_ & R) H. unfold graph in H. rewrite !in_app_iff in H. destruct H as [H|[H|[H|[H|[H|H]]]]].
  - left. specialize (R e H). tauto.
  - right. apply in_segm_outliers in H; [|exact O]. lia.
  - right. apply in_gt_outliers in H; [|exact O]. lia.
  - right. apply in_mixed in H; [|exact O]. lia.
  - right. apply in_overlay_segm in H. lia.
  - right. apply in_overlay_gt in H. lia.
Qed.
Lemma graph_nodup s g w o real : 0 <= s -> 0 <= g -> fair_out s g o -> fair_real s g real -> NoDup (map fst (graph s g w o real)).
Proof.
  intros S G O (N & R). assert (O' := O). destruct O' as (O1 & O2 & O3). unfold graph. rewrite !map_app.
  assert (K1 : forall x, In x (map fst real) -> 0 <= fst x < s /\ 0 <= snd x < g) by (intros x X; apply in_map_iff in X; destruct X as (e & <- & X); apply R in X; unfold left_of, right_of in X; tauto).
  assert (K2 : forall x, In x (map fst (segm_outliers s g w o)) -> 0 <= fst x < s /\ g <= snd x < g + s /\ snd x <> g + fst x) by (intros x X; apply in_map_iff in X; destruct X as (e & <- & X); apply in_segm_outliers in X; [|exact O]; unfold left_of, right_of in X; tauto).
  assert (K3 : forall x, In x (map fst (gt_outliers s g w o)) -> s <= fst x < s + g /\ 0 <= snd x < g /\ fst x <> s + snd x) by (intros x X; apply in_map_iff in X; destruct X as (e & <- & X); apply in_gt_outliers in X; [|exact O]; unfold left_of, right_of in X; tauto).
  assert (K4 : forall x, In x (map fst (mixed s g w o)) -> s <= fst x < s + g /\ g <= snd x < g + s) by (intros x X; apply in_map_iff in X; destruct X as (e & <- & X); apply in_mixed in X; [|exact O]; unfold left_of, right_of in X; tauto).
  assert (K5 : forall x, In x (map fst (overlay_segm s g w)) -> 0 <= fst x < s /\ snd x = g + fst x) by (intros x X; apply in_map_iff in X; destruct X as (e & <- & X); apply in_overlay_segm in X; unfold left_of, right_of in X; tauto).
  assert (K6 : forall x, In x (map fst (overlay_gt s g w)) -> 0 <= snd x < g /\ fst x = s + snd x) by (intros x X; apply in_map_iff in X; destruct X as (e & <- & X); apply in_overlay_gt in X; unfold left_of, right_of in X; tauto).
  assert (N2 : NoDup (map fst (segm_outliers s g w o))).
  { unfold segm_outliers. rewrite flat_map_concat_map, concat_map, map_map, <- flat_map_concat_map. apply nodup_flat_map; [apply nodup_zrange| |].
    - intros i Hi. apply in_zrange in Hi. rewrite map_map. cbn [fst]. apply nodup_map; [|apply O1; lia]. intros x y _ _ E. injection E as E. apply (skip_inj i). lia.
    - intros a b x _ _ X Y. rewrite map_map in X, Y. apply in_map_iff in X, Y. destruct X as (c & <- & _), Y as (d & E & _). cbn [fst] in E. congruence. }
  assert (N3 : NoDup (map fst (gt_outliers s g w o))).
  { unfold gt_outliers. rewrite flat_map_concat_map, concat_map, map_map, <- flat_map_concat_map. apply nodup_flat_map; [apply nodup_zrange| |].
    - intros i Hi. apply in_zrange in Hi. rewrite map_map. cbn [fst]. apply nodup_map; [|apply O2; lia]. intros x y _ _ E. injection E as E. apply (skip_inj i). lia.
    - intros a b x _ _ X Y. rewrite map_map in X, Y. apply in_map_iff in X, Y. destruct X as (c & <- & _), Y as (d & E & _). cbn [fst] in E. congruence. }
  assert (N4 : NoDup (map fst (mixed s g w o))).
  { unfold mixed. rewrite flat_map_concat_map, concat_map, map_map, <- flat_map_concat_map. apply nodup_flat_map; [apply nodup_zrange| |].
    - intros i Hi. apply in_zrange in Hi. rewrite map_map. apply nodup_map; [|apply O3; lia]. intros x y _ _ E. destruct (s <? g); cbn [fst] in E; injection E as E; lia.
    - intros a b x _ _ X Y. rewrite map_map in X, Y. apply in_map_iff in X, Y. destruct X as (c & <- & _), Y as (d & E & _). destruct (s <? g); cbn [fst] in E; injection E as E1 E2; lia. }
  assert (N5 : NoDup (map fst (overlay_segm s g w))) by (unfold overlay_segm; rewrite map_map; apply nodup_map; [intros x y _ _ E; injection E; intros; assumption|apply nodup_zrange]).
  assert (N6 : NoDup (map fst (overlay_gt s g w))) by (unfold overlay_gt; rewrite map_map; apply nodup_map; [intros x y _ _ E; injection E; intros; assumption|apply nodup_zrange]).
  repeat apply nodup_app; try assumption; intros x X Y; rewrite ?in_app_iff in Y;
    repeat match goal with H : _ \/ _ |- _ => destruct H as [H|H] end;
    repeat match goal with
    | H : In x (map fst real) |- _ => apply K1 in H | H : In x (map fst (segm_outliers s g w o)) |- _ => apply K2 in H | H : In x (map fst (gt_outliers s g w o)) |- _ => apply K3 in H
    | H : In x (map fst (mixed s g w o)) |- _ => apply K4 in H | H : In x (map fst (overlay_segm s g w)) |- _ => apply K5 in H | H : In x (map fst (overlay_gt s g w)) |- _ => apply K6 in H end; lia.
Qed.
Lemma overlay_perfect s g w o real : 0 <= s -> 0 <= g -> perfect (s + g) (graph s g w o real) (overlay_segm s g w ++ overlay_gt s g w).
Proof.
  intros S G. split; [|split; [|split; [|split]]].
  - intros e H. unfold graph. rewrite !in_app_iff in *. tauto.
  - unfold overlay_segm, overlay_gt. rewrite app_length, !map_length, Nat2Z.inj_add, !zrange_size by lia. reflexivity.
  - rewrite map_app. unfold overlay_segm, overlay_gt. rewrite !map_map. unfold left_of. cbn [fst snd]. apply nodup_app; try (apply nodup_map; [intros x y _ _ E; lia|apply nodup_zrange]). intros x X Y. apply in_map_iff in X, Y. destruct X as (a & <- & A), Y as (b & E & B). apply in_zrange in A, B. lia.
  - rewrite map_app. unfold overlay_segm, overlay_gt. rewrite !map_map. unfold right_of. cbn [fst snd]. apply nodup_app; try (apply nodup_map; [intros x y _ _ E; lia|apply nodup_zrange]). intros x X Y. apply in_map_iff in X, Y. destruct X as (a & <- & A), Y as (b & E & B). apply in_zrange in A, B. lia.
  - intros e H. apply in_app_or in H. destruct H as [H|H]; [apply in_overlay_segm in H|apply in_overlay_gt in H]; lia.
Qed.

(* what is recorded of a solution *)
Lemma in_recorded s g sol e : In e (recorded s g sol) <-> In e sol /\ left_of e < s /\ right_of e < g.
Proof. unfold recorded. rewrite filter_In, andb_true_iff, !Z.ltb_lt. reflexivity. Qed.
Lemma nodup_map_filter {A B} (f : A -> B) p l : NoDup (map f l) -> NoDup (map f (filter p l)).
Proof.
  induction l as [|a l IH]; intros N; cbn [filter map] in *; [constructor|]. inversion N as [|x y H1 H2]; subst. destruct (p a); [|exact (IH H2)]. cbn [map]. constructor; [|exact (IH H2)]. intros H. apply H1. apply in_map_iff in H. destruct H as (b & E & Hb). apply filter_In in Hb. apply in_map_iff. exists b. tauto.
Qed.
Lemma recorded_real s g w o real sol e : 0 <= s -> 0 <= g -> fair_out s g o -> fair_real s g real -> perfect (s + g) (graph s g w o real) sol -> In e (recorded s g sol) -> In e real.
Proof. intros S G O R (P & _) H. apply in_recorded in H. destruct H as (H & A & B). apply P in H. apply (in_graph s g w o real e S G O R) in H. destruct H as [H|H]; [tauto|lia]. Qed.
Lemma bounded_count l n : NoDup l -> 0 <= n -> (forall x, In x l -> 0 <= x < n) -> Z.of_nat (length l) <= n.
Proof. intros N H B. rewrite <- (zrange_size 0 n H). apply inj_le. apply NoDup_incl_length; [exact N|]. intros x X. apply in_zrange. specialize (B x X). lia. Qed.
Lemma recorded_count s g w o real sol : 0 <= s -> 0 <= g -> fair_out s g o -> fair_real s g real -> perfect (s + g) (graph s g w o real) sol -> Z.of_nat (length (recorded s g sol)) <= Z.min s g.
Proof.
  intros S G O R P. assert (Q := recorded_real s g w o real sol). destruct P as (P1 & P2 & P3 & P4 & P5) eqn:EP. apply Z.min_glb.
  - rewrite <- (map_length left_of). apply bounded_count; [apply nodup_map_filter; exact P3|exact S|]. intros x X. apply in_map_iff in X. destruct X as (e & <- & X). apply Q in X; try assumption. apply (proj2 R) in X. tauto.
  - rewrite <- (map_length right_of). apply bounded_count; [apply nodup_map_filter; exact P4|exact G|]. intros x X. apply in_map_iff in X. destruct X as (e & <- & X). apply Q in X; try assumption. apply (proj2 R) in X. tauto.
Qed.
(* the cost counts what is not recorded *)
Lemma cost_low s g w l : 0 <= w -> (forall e, In e l -> 0 <= cost_of e) -> (forall e, In e l -> s <= left_of e \/ g <= right_of e -> w <= cost_of e) -> w * (Z.of_nat (length l) - Z.of_nat (length (recorded s g l))) <= cost l.
Proof.
  intros W. induction l as [|e l IH]; intros A B; cbn [cost fold_right recorded filter length]; [lia|]. fold (cost l) in *. specialize (IH (fun x X => A x (or_intror X)) (fun x X => B x (or_intror X))). assert (A0 := A e (or_introl eq_refl)). assert (B0 := B e (or_introl eq_refl)). fold (recorded s g l). fold (left_of e) (right_of e). destruct (Z.ltb_spec (left_of e) s), (Z.ltb_spec (right_of e) g); cbn [andb length]; try (specialize (B0 ltac:(lia))); unfold cost in *; nia.
Qed.
Lemma cost_high s g w r l : (forall e, In e l -> left_of e < s -> right_of e < g -> cost_of e <= r) -> (forall e, In e l -> s <= left_of e \/ g <= right_of e -> cost_of e <= w) -> cost l <= r * Z.of_nat (length (recorded s g l)) + w * (Z.of_nat (length l) - Z.of_nat (length (recorded s g l))).
Proof.
  intros A. revert A. induction l as [|e l IH]; intros A B; cbn [cost fold_right recorded filter length]; [lia|]. fold (cost l) in *. specialize (IH (fun x X => A x (or_intror X)) (fun x X => B x (or_intror X))). assert (A0 := A e (or_introl eq_refl)). assert (B0 := B e (or_introl eq_refl)). fold (recorded s g l). fold (left_of e) (right_of e). destruct (Z.ltb_spec (left_of e) s), (Z.ltb_spec (right_of e) g); cbn [andb length]; try (specialize (B0 ltac:(lia))); try (specialize (A0 ltac:(lia) ltac:(lia))); unfold cost in *; nia.
Qed.
Lemma near_best s g w r o real sol sol' : 0 <= w -> 0 <= s -> 0 <= g -> fair_out s g o -> fair_real s g real -> (forall e, In e real -> cost_of e <= r) -> cheapest (s + g) (graph s g w o real) sol -> perfect (s + g) (graph s g w o real) sol' ->
  (forall e, In e sol' -> In e real \/ cost_of e = w) -> w * (Z.of_nat (length (recorded s g sol')) - Z.of_nat (length (recorded s g sol))) <= r * Z.of_nat (length (recorded s g sol')).
Proof.
  intros W S G O R RM [P C] P' F. specialize (C sol' P').
  assert (L : w * (Z.of_nat (length sol) - Z.of_nat (length (recorded s g sol))) <= cost sol).
  { apply cost_low; [exact W| |]; intros e E; destruct P as (P & _); apply P in E; assert (E' := in_graph s g w o real e S G O R E); destruct E' as [(E1 & E2 & E3)|E'].
    - apply R in E1. lia.
    - lia.
    - intros; lia.
    - intros; lia. }
  assert (H : cost sol' <= r * Z.of_nat (length (recorded s g sol')) + w * (Z.of_nat (length sol') - Z.of_nat (length (recorded s g sol')))).
  { apply cost_high; intros e E.
    - intros A B. apply RM. destruct P' as (P' & _). apply P' in E. apply (in_graph s g w o real e S G O R) in E. destruct E as [E|E]; [tauto|lia].
    - intros A. destruct (F e E) as [E1|E1]; [|lia]. apply R in E1. lia. }
  destruct P as (_ & P & _), P' as (_ & P' & _). rewrite P in L. rewrite P' in H. nia.
Qed.
(* the graph of a task *)
Lemma weight_nonneg d : 0 <= weight d.
Proof. unfold weight. cbv zeta. assert (X := Z.sqrt_nonneg (10000 * d)). destruct (_ <? _); lia. Qed.
Lemma weight_near d : 0 <= d -> let w := weight d in (2 * w - 1) * (2 * w - 1) <= 4 * (10000 * d) \/ w = 0.
Proof.
  intros H. cbv zeta. unfold weight. cbv zeta. assert (X := Z.sqrt_spec (10000 * d) ltac:(lia)). cbv zeta in X. assert (Y := Z.sqrt_nonneg (10000 * d)). set (x := 10000 * d) in *. set (a := Z.sqrt x) in *. destruct (Z.ltb_spec (a * a + a) x); [left; nia|]. destruct (Z.eq_dec a 0); [right; lia|left; nia].
Qed.
Lemma weight_up d : 0 <= d -> 4 * (10000 * d) <= (2 * weight d + 1) * (2 * weight d + 1).
Proof.
  intros H. unfold weight. cbv zeta. assert (X := Z.sqrt_spec (10000 * d) ltac:(lia)). cbv zeta in X. assert (Y := Z.sqrt_nonneg (10000 * d)). set (x := 10000 * d) in *. set (a := Z.sqrt x) in *. destruct (Z.ltb_spec (a * a + a) x); nia.
Qed.
Lemma task_fair_real t : fair t -> fair_real (Z.of_nat (length (nodes_segm t))) (Z.of_nat (length (nodes_gt t))) (real_edges t).
Proof.
  intros F. split; [exact (real_edges_nodup t F)|]. intros e H. apply real_edges_iff in H; [|exact F]. destruct H as (p & q & P & Q & SP & GQ & W & ->). unfold left_of, right_of, cost_of. cbn [fst snd]. destruct (in_nodes_segm t p q F P Q SP GQ W) as [A B]. assert (X := proj1 (place_nth _ p (0, 0) A)). assert (Y := proj1 (place_nth _ q (0, 0) B)). assert (WN := weight_nonneg (gap p q)). tauto.
Qed.
Lemma recorded_pixels t w o sol e : fair t -> fair_out (Z.of_nat (length (nodes_segm t))) (Z.of_nat (length (nodes_gt t))) o ->
  perfect (Z.of_nat (length (nodes_segm t)) + Z.of_nat (length (nodes_gt t))) (graph (Z.of_nat (length (nodes_segm t))) (Z.of_nat (length (nodes_gt t))) w o (real_edges t)) sol ->
  In e (recorded (Z.of_nat (length (nodes_segm t))) (Z.of_nat (length (nodes_gt t))) sol) ->
  let p := nth (Z.to_nat (left_of e)) (nodes_segm t) (0, 0) in let q := nth (Z.to_nat (right_of e)) (nodes_gt t) (0, 0) in
  In p (all_px t) /\ In q (all_px t) /\ segm t p = true /\ gt t q = true /\ within (dist2 t) p q /\ cost_of e = weight (gap p q).
Proof.
  intros F O P H. apply (recorded_real _ _ w o (real_edges t) sol e (Zle_0_nat _) (Zle_0_nat _) O (task_fair_real t F) P) in H. apply real_edges_iff in H; [|exact F]. destruct H as (p & q & PP & Q & SP & GQ & W & ->). unfold left_of, right_of, cost_of. cbn [fst snd]. cbv zeta. destruct (in_nodes_segm t p q F PP Q SP GQ W) as [A B]. rewrite (proj2 (place_nth _ p (0, 0) A)), (proj2 (place_nth _ q (0, 0) B)). tauto.
Qed.
(* every node is covered; outliers without edges among themselves take ground truth nodes *)
Lemma covered n l : 0 <= n -> NoDup l -> Z.of_nat (length l) = n -> (forall x, In x l -> 0 <= x < n) -> forall x, 0 <= x < n -> In x l.
Proof.
  intros Hn N L B. assert (I : incl (zrange 0 n) l). { apply NoDup_length_incl; [exact N|assert (ZS := zrange_size 0 n Hn); lia|]. intros x X. apply in_zrange. specialize (B x X). lia. }
  intros x X. apply I, in_zrange. lia.
Qed.
Definition poor : outliers := {| out_segm := fun _ => zrange 0 6; out_gt := fun _ => zrange 0 6; out_mix := fun _ => zrange 0 6 |}.
Lemma selection_first n : 6 <= n -> selection 6 n (zrange 0 6).
Proof. intros H. split; [reflexivity|]. split; [apply nodup_zrange|]. intros x X. apply in_zrange in X. lia. Qed.
Lemma poor_fair n : 7 <= n -> fair_out n n poor.
Proof.
  intros H. assert (D : degree_side n = 6) by (unfold degree_side; lia). assert (M : degree_mix n n = 6) by (unfold degree_mix; lia). rewrite <- (Z.min_id n) in M. unfold fair_out. rewrite D. split; [|split]; intros i Hi.
  - apply selection_first. lia.
  - apply selection_first. lia.
  - replace (degree_mix n n) with 6 by (unfold degree_mix; lia). apply selection_first. lia.
Qed.
Lemma poor_match n w real sol : 7 <= n -> fair_real n n real -> perfect (n + n) (graph n n w poor real) sol -> Z.of_nat (length (recorded n n sol)) <= 6.
Proof.
  intros H R P. assert (O := poor_fair n H). assert (P' := P). destruct P' as (P1 & P2 & P3 & P4 & P5).
  set (far := filter (fun e => n + 6 <=? left_of e) sol).
  assert (F : forall e, In e far -> 0 <= right_of e < n).
  { intros e E. apply filter_In in E. destruct E as [E L]. apply Z.leb_le in L. assert (B := P5 e E). apply P1 in E. unfold graph in E. rewrite !in_app_iff in E. destruct E as [E|[E|[E|[E|[E|E]]]]].
    - apply R in E. lia.
    - apply in_segm_outliers in E; [lia|exact O].
    - apply in_gt_outliers in E; [lia|exact O].
    - exfalso. unfold mixed in E. apply in_flat_map in E. destruct E as (i & _ & E). apply in_map_iff in E. destruct E as (j & E & Hj). cbn [out_mix poor] in Hj. apply in_zrange in Hj. rewrite Z.ltb_irrefl in E. subst e. unfold left_of in L. cbn [fst snd] in L. lia.
    - apply in_overlay_segm in E. lia.
    - apply in_overlay_gt in E. lia. }
  assert (C : n - 6 <= Z.of_nat (length far)).
  { rewrite <- (map_length left_of), <- (zrange_size (n + 6) (n - 6)) by lia. apply inj_le, NoDup_incl_length; [apply nodup_zrange|]. intros x X. apply in_zrange in X.
    assert (I : In x (map left_of sol)). { apply (covered (n + n)); [lia|exact P3|rewrite map_length; exact P2| |lia]. intros y Y. apply in_map_iff in Y. destruct Y as (e & <- & Y). apply P5. exact Y. }
    apply in_map_iff in I. destruct I as (e & E & I). apply in_map_iff. exists e. split; [exact E|]. apply filter_In. split; [exact I|]. apply Z.leb_le. lia. }
  assert (D : Z.of_nat (length (map right_of (recorded n n sol) ++ map right_of far)) <= n).
  { apply bounded_count; [|lia|].
    - apply nodup_app; [apply nodup_map_filter; exact P4|apply nodup_map_filter; exact P4|]. intros x X Y. apply in_map_iff in X, Y. destruct X as (a & Ea & A), Y as (b & Eb & B). apply in_recorded in A. apply filter_In in B. destruct A as (A & A1 & A2), B as (B & B1). apply Z.leb_le in B1.
      assert (E : a = b). { clear - P4 Ea Eb A B. revert A B. induction sol as [|e l IH]; intros A B; [destruct A|]. cbn [map] in P4. inversion P4 as [|u v N1 N2]; subst u v. destruct A as [<-|A], B as [<-|B]; [reflexivity| | |exact (IH N2 A B)].
        - exfalso. apply N1. apply in_map_iff. exists b. split; [congruence|exact B].
        - exfalso. apply N1. apply in_map_iff. exists a. split; [congruence|exact A]. }
      subst b. lia.
    - intros x X. apply in_app_or in X. destruct X as [X|X]; apply in_map_iff in X; destruct X as (e & <- & X); [|apply F; exact X]. apply in_recorded in X. destruct X as (X & _ & X2). specialize (P5 e X). lia. }
  rewrite app_length, !map_length in D. unfold edge in *. lia.
Qed.
