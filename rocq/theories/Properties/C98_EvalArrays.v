(** C98: the evaluation of several streams at once. *)
From Coq Require Import ZArith QArith List Bool String.
From Verif Require Import Model.Metrics Model.EvalArrays Spec.Metrics Spec.MetricsTree Spec.EvalArrays Proofs.MetricsTree Proofs.EvalArrays.
Import ListNotations.
Open Scope Z_scope.

(** packets: every stream has exactly what counting its own images in order gives, whatever the other streams show; the batch fails only when an image of some
    stream fails, or when a packet has the wrong number of images. [f] counts one image; stated for any kind of value and image *)
Theorem C98_packets : forall A (zero : A) X (f : A -> X -> option A) (dx : X) n l, (0 < n)%nat -> l <> [] ->
  (forall a, process_all A zero f n l = Some a -> Forall (fun xs => List.length xs = n) l /\ shaped n a /\ (forall s, nth s (names a) EmptyString = EmptyString) /\
     forall s, (s < n)%nat -> sequence f (map (fun xs => nth s xs dx) l) zero = Some (nth s (vals a) zero)) /\
  (Forall (fun xs => List.length xs = n) l -> (forall s, (s < n)%nat -> sequence f (map (fun xs => nth s xs dx) l) zero <> None) -> process_all A zero f n l <> None).
Proof. exact process_ok. Qed.
Print Assumptions C98_packets.
(** totals of batches that all have the same number of streams: stream by stream, with the first name given to each *)
Theorem C98_totals : forall A (zero : A) (add : A -> A -> A) n l, l <> [] -> Forall (shaped n) l ->
  exists c, total_accs A zero add (map Some l) = Some c /\ shaped n c /\
    (forall s, (s < n)%nat -> nth s (vals c) zero = fold_left add (map (fun x => nth s (vals x) zero) l) zero) /\
    (forall s, (s < n)%nat -> nth s (names c) EmptyString = first_named (map (fun x => nth s (names x) EmptyString) l)).
Proof. exact total_ok. Qed.
Print Assumptions C98_totals.
(** for classifications, over a whole tree: every counter is the sum over all work batches *)
Theorem C98_tree_totals : forall n b s, full n b -> (s < n)%nat -> (forall k a, In (k, a) (aleaves b) -> good (nth s (vals a) zero_counters)) ->
  exists a, abase counters zero_counters accumulate b = Some a /\ shaped n a /\
            nth s (vals a) zero_counters = summed (map (fun p => nth s (vals (snd p)) zero_counters) (aleaves b)).
Proof. exact total_streams. Qed.
Print Assumptions C98_tree_totals.
(** for disparities, errors are kept in the order of the batches *)
Theorem C98_errors : forall l, fold_left merge_errors l (DE [] 0) = DE (flat_map vErrors l) ((zsum_list (map nDCs l)) mod 18446744073709551616).
Proof. intros l. rewrite errors_total. cbn [vErrors nDCs app]. f_equal. now apply dc_total. Qed.
Print Assumptions C98_errors.
(** when the totals exist: batches without packets may only come before all others, and the others need the same number of streams *)
Theorem C98_totals_exist : forall A (zero : A) (add : A -> A -> A) l, Forall (fun a => exists n, shaped n a) l ->
  (total_accs A zero add (map Some l) <> None <-> exists us ps n, l = us ++ ps /\ Forall (shaped 0) us /\ Forall (shaped n) ps).
Proof. exact total_exists. Qed.
Print Assumptions C98_totals_exist.
(** so the totals of a group are refused when a batch still has to be processed, unless that batch happens to come first; a single-stream evaluation counts it as nothing *)
Theorem C98_unprocessed_refuted : exists p u : abatch counters, aoutputs u = 0 /\ aoutputs p = 1 /\ full 2 p /\ full 0 u /\
  abase counters zero_counters accumulate (AGroup false [u; p]) = abase counters zero_counters accumulate p /\
  abase counters zero_counters accumulate (AGroup false [p; u]) = None /\
  forall s, metrics_base (stream s (AGroup false [p; u])) = metrics_base (stream s p).
Proof.
  exists (AWork 1 (Acc [Cnt 5 1 1 0 0 0; Cnt 4 0 1 2 0 0] [EmptyString; EmptyString])), (AWork 0 (new_acc counters zero_counters 0)).
  do 2 (split; [ reflexivity |]). split; [ split; reflexivity |]. split; [ split; reflexivity |]. do 2 (split; [ vm_compute; reflexivity |]).
  intros [| [| [| s]]]; vm_compute; reflexivity.
Qed.
Print Assumptions C98_unprocessed_refuted.

(** averages: whatever is reported for a stream is what the evaluation of that stream alone would report, with the same weight (C46 says what that is) *)
Theorem C98_averages : forall of b s a, aget counters zero_counters accumulate metrics of merge b = Some a -> (s < List.length (mets a))%nat ->
  get_metrics of (stream s b) = Some (nth s (mets a) (of zero_counters), weight a).
Proof. intros of b s a E L. exact (average_stream of b s a E L). Qed.
Print Assumptions C98_averages.
(** they exist as soon as there is some output and the parts with output have the same number of streams: batches without packets do no harm here *)
Theorem C98_averages_exist : forall of n b, aoutputs b <> 0 -> evaluated n b ->
  exists a, aget counters zero_counters accumulate metrics of merge b = Some a /\ List.length (mets a) = n.
Proof. exact average_defined. Qed.
Print Assumptions C98_averages_exist.
(** the names are those of the first part only: a name given later is lost, though the totals would have kept it *)
Theorem C98_names_refuted : exists of a b m t, full 1 a /\ full 1 b /\
  aget counters zero_counters accumulate metrics of merge (AGroup false [a; b]) = Some m /\
  aget_total counters zero_counters accumulate metrics of (AGroup false [a; b]) = Some t /\
  mnames t = ["left"%string] /\ mnames m = [""%string].
Proof.
  exists (fun _ => Met 0 0 0 0 0 0 0 0), (AWork 1 (Acc [Cnt 1 0 0 0 0 0] [""%string])), (AWork 1 (Acc [Cnt 1 0 0 0 0 0] ["left"%string])). do 2 eexists.
  split; [ split; reflexivity |]. split; [ split; reflexivity |]. split; [ reflexivity |]. split; [ reflexivity |]. split; reflexivity.
Qed.
Print Assumptions C98_names_refuted.

(** the reduced row is the mean over the streams; without streams it is refused *)
Theorem C98_reduced : (forall a, mets a <> [] -> exists m, reduce_calc a = Some (m, 1) /\ forall f, In f fields -> is_mean (f m) (map f (mets a))) /\
  (forall a, mets a <> [] -> exists m, sreduce_calc a = Some m /\ forall f, In f sfields -> is_mean (f m) (map f (mets a))) /\
  (forall a, mets a = [] -> reduce_calc a = None).
Proof. split; [ exact reduce_mean |]. split; [ exact sreduce_mean | exact reduce_fails ]. Qed.
Print Assumptions C98_reduced.
(** reducing an average is averaging the reduced rows *)
Theorem C98_reduced_average : forall a b c ra rb f, acalc_merge metrics merge a b = Some c -> reduce_calc a = Some (ra, 1) -> reduce_calc b = Some (rb, 1) ->
  0 < weight a + weight b < 18446744073709551616 -> In f fields ->
  exists rc, reduce_calc c = Some (rc, 1) /\ (f rc == f (fst (merge (ra, weight a) (rb, weight b))))%Q.
Proof. exact reduce_merge. Qed.
Print Assumptions C98_reduced_average.
(** it is not the metric of the counters of all streams, which the accumulator's own reduction gives *)
Theorem C98_pooled_refuted : exists (a : acc counters) c m, shaped 2 a /\ calc_of counters metrics (fun c => Met (CalcRecall c) 0 0 0 0 0 0 0) a = Some c /\ reduce_calc c = Some (m, 1) /\
  (dRecall m == 1 # 2)%Q /\ (CalcRecall (acc_reduce counters zero_counters accumulate a) == 9 # 10)%Q.
Proof.
  exists (Acc [Cnt 9 0 0 0 0 0; Cnt 0 0 0 1 0 0] [""%string; ""%string]). do 2 eexists. split; [ split; reflexivity |]. do 2 (split; [ reflexivity |]). split; vm_compute; reflexivity.
Qed.
Print Assumptions C98_pooled_refuted.

(** disparity metrics of parts with positive weights: each metric of the average, times the total weight, is the sum of the metric times the weight over the parts *)
Theorem C98_disparity_averages : forall f l a, In f sfields -> Forall (fun x => 0 < snd x) l -> 0 < snd a -> snd a + fold_right (fun (x : smetrics * Z) s => snd x + s) 0 l < 18446744073709551616 ->
  let r := fold_left smerge l a in snd r = snd a + fold_right (fun x s => snd x + s) 0 l /\
  (f (fst r) * inject_Z (snd r) == f (fst a) * inject_Z (snd a) + fold_right (fun x s => f (fst x) * inject_Z (snd x) + s) 0 l)%Q.
Proof. intros f l a I P. exact (smerge_all f l I P a). Qed.
Print Assumptions C98_disparity_averages.
(** rows have the name of their stream; without a name they have the letter s and a number, so that no two of these are alike *)
Theorem C98_labels : forall number names s, (nth s names EmptyString <> EmptyString -> row_label number names s = nth s names EmptyString) /\
  (nth s names EmptyString = EmptyString -> row_label number names s = ("s" ++ number s)%string) /\
  ((forall i j, number i = number j -> i = j) -> forall t, nth s names EmptyString = EmptyString -> nth t names EmptyString = EmptyString -> row_label number names s = row_label number names t -> s = t).
Proof.
  intros number names s. unfold row_label. split; [| split ].
  - intro N. cbv zeta. destruct (String.eqb_spec (nth s names EmptyString) ""); [ contradiction | reflexivity ].
  - intros ->. reflexivity.
  - intros I t -> -> E. cbn in E. injection E as E. now apply I.
Qed.
Print Assumptions C98_labels.
(** a stream may be named like the row of another one *)
Theorem C98_labels_refuted : forall number, exists names s t, s <> t /\ row_label number names s = row_label number names t.
Proof. intros number. exists [("s" ++ number 1%nat)%string; EmptyString], 0%nat, 1%nat. split; [ discriminate | reflexivity ]. Qed.
Print Assumptions C98_labels_refuted.

(** two batches of two streams and one not processed yet, in a nested group *)
Example C98_ex : exists b a, aoutputs b = 5 /\ evaluated 2 b /\ aget counters zero_counters accumulate metrics (fun c => Met (CalcRecall c) 0 0 0 0 0 0 0) merge b = Some a /\
  weight a = 2 /\ exists x y, mets a = [x; y] /\ (dRecall x == 3 # 4)%Q /\ (dRecall y == 1 # 2)%Q.
Proof.
  exists (AGroup false [AWork 3 (Acc [Cnt 1 0 0 1 0 0; Cnt 0 0 0 1 0 0] [""%string; ""%string]); AWork 0 (Acc [] []); AGroup false [AWork 2 (Acc [Cnt 3 0 0 0 0 0; Cnt 2 0 0 0 0 0] [""%string; ""%string])]]).
  eexists. split; [ reflexivity |]. split.
  { cbn. repeat split; auto; exfalso; auto. }
  split; [ reflexivity |]. split; [ reflexivity |]. do 2 eexists. split; [ reflexivity |]. split; vm_compute; reflexivity.
Qed.
Example C98_ex_packets : exists a, process_all counters zero_counters (fun c (b : bool) => if b then Some (accumulate c (Cnt 1 0 0 0 0 0)) else None) 2 [[true; true]; [true; true]] = Some a /\
  vals a = [Cnt 2 0 0 0 0 0; Cnt 2 0 0 0 0 0] /\
  process_all counters zero_counters (fun c (b : bool) => if b then Some (accumulate c (Cnt 1 0 0 0 0 0)) else None) 2 [[true; true]; [true; false]] = None.
Proof. eexists. split; [ reflexivity |]. split; reflexivity. Qed.
Example C98_ex_disparity : exists r, r = fold_left smerge [(SMet 1 0 0 0 0 0, 1); (SMet 4 0 0 0 0 0, 2)] (SMet 3 0 0 0 0 0, 1) /\ snd r = 4 /\ (dBad05 (fst r) == 3)%Q.
Proof. eexists. split; [ reflexivity |]. split; reflexivity. Qed.
