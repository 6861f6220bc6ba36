(** C46: metrics of a tree of work batches. *)
From Coq Require Import ZArith QArith List Bool.
From Verif Require Import Model.Metrics Spec.Metrics Spec.MetricsTree Proofs.Metrics Proofs.MetricsTree.
Import ListNotations.
Open Scope Z_scope.

(** with averaging, every metric is the mean over the units (work batches and bare groups, with output), and the weight is their number; [of] is any way to
    turn counters into metrics *)
Theorem C46_average : forall of b, wf b -> (match b with Work _ _ => True | Group true _ => True | Group false _ => produced b <> 0 end) ->
  exists m w, get_metrics of b = Some (m, w) /\ w = Z.of_nat (length (units b)) /\ forall f, In f fields -> is_mean (f m) (map (fun c => f (of c)) (units b)).
Proof.
  intros of b W P. destruct (average_units of b W P) as (m & w & E & N & Ew & R). exists m, w. split; [ exact E |]. split; [ exact Ew |].
  intros f I. split; [ now destruct (units b) |]. rewrite map_length, <- Ew. now apply R.
Qed.
Print Assumptions C46_average.
(** so it lies between any bounds of the units *)
Theorem C46_average_bounds : forall of b m w f lo hi, wf b -> get_metrics of b = Some (m, w) -> In f fields ->
  (match b with Work _ _ => True | Group true _ => True | Group false _ => produced b <> 0 end) ->
  (forall c, In c (units b) -> (lo <= f (of c) <= hi)%Q) -> (lo <= f m <= hi)%Q.
Proof. exact average_bounds. Qed.
Print Assumptions C46_average_bounds.
(** a group without any output fails the assertion *)
Theorem C46_no_output : forall of l, wf (Group false l) -> produced (Group false l) = 0 -> get_metrics of (Group false l) = None.
Proof. exact average_none. Qed.
Print Assumptions C46_no_output.
(** without averaging, the counters are the sums over all work batches *)
Theorem C46_totals : forall b, (forall n c, In (n, c) (leaves b) -> good c) -> metrics_base b = summed (map snd (leaves b)).
Proof. exact base_sum. Qed.
Print Assumptions C46_totals.

Definition recall_only (c : counters) : metrics := Met (CalcRecall c) 0 0 0 0 0 0 0.
(** the average is not the metric of the totals *)
Theorem C46_average_is_total_refuted : exists b m w, wf b /\ produced b <> 0 /\ get_metrics recall_only b = Some (m, w) /\
  ~ (dRecall m == dRecall (fst (get_metrics_total recall_only b)))%Q.
Proof.
  exists (Group false [Work 1 (Cnt 1 0 0 0 0 0); Work 1 (Cnt 0 0 0 9 0 0)]). eexists. eexists. split.
  { split; [| split; reflexivity ]. intros n c [E | [E | [] ] ]; inversion E; subst; split; try discriminate; repeat split; discriminate. }
  split; [ discriminate |]. split; [ reflexivity |]. vm_compute. discriminate.
Qed.
Print Assumptions C46_average_is_total_refuted.
(** nested groups do not weigh the same: a category of three sequences counts three times as much as a category of one *)
Theorem C46_equal_categories_refuted : exists a b m ma mb w wa wb, wf (Group false [Group false a; Group false b]) /\
  get_metrics recall_only (Group false [Group false a; Group false b]) = Some (m, w) /\
  get_metrics recall_only (Group false a) = Some (ma, wa) /\ get_metrics recall_only (Group false b) = Some (mb, wb) /\
  (dRecall m == 1 # 4)%Q /\ (dRecall ma == 0)%Q /\ (dRecall mb == 1)%Q.
Proof.
  exists [Work 1 (Cnt 0 0 0 9 0 0); Work 1 (Cnt 0 0 0 9 0 0); Work 1 (Cnt 0 0 0 9 0 0)], [Work 1 (Cnt 1 0 0 0 0 0)]. do 6 eexists. split.
  { split; [| split; reflexivity ]. intros n c [E | [E | [E | [E | [] ] ] ] ]; inversion E; subst; split; try discriminate; repeat split; discriminate. }
  split; [ reflexivity |]. split; [ reflexivity |]. split; [ reflexivity |]. vm_compute. auto.
Qed.
Print Assumptions C46_equal_categories_refuted.

(** a tree with an empty batch, a bare group and a nested group: three units *)
Example C46_ex : exists b m, wf b /\ produced b = 20 /\ length (units b) = 3%nat /\ get_metrics recall_only b = Some (m, 3) /\ (dRecall m == 7 # 12)%Q.
Proof.
  exists (Group false [Work 0 (Cnt 0 0 0 0 0 0); Work 5 (Cnt 1 0 0 1 0 0); Group true [Work 5 (Cnt 1 0 0 3 0 0); Work 5 (Cnt 1 0 0 3 0 0)]; Group false [Work 5 (Cnt 2 0 0 0 0 0)]]).
  eexists. split. { split; [| split; reflexivity ]. intros n c [E | [E | [E | [E | [E | [] ] ] ] ] ]; inversion E; subst; split; try discriminate; repeat split; discriminate. }
  split; [ reflexivity |]. split; [ reflexivity |]. split; [ reflexivity |]. vm_compute. reflexivity.
Qed.
