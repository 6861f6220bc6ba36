(** C71: what the BSDS500 edge evaluation counts, and where its numbers cannot be trusted. *)
From Coq Require Import ZArith QArith List Bool Lia Lqa Permutation.
From Verif Require Import Lib.Grid Model.Interp Model.Vectors Model.Metrics Model.Bsds Spec.Bsds Proofs.Metrics Proofs.Bsds.
Import ListNotations.
Open Scope Z_scope.

(** recall counts: the ground truth pixels with an edge pixel within 0.0075 diagonals, out of all ground truth pixels;
    precision counts: distinct edge pixels close to the ground truth, out of all edge pixels; the assertions on both never fail *)
Theorem C71_matching : forall h w gts segm, 0 <= h -> 0 <= w -> let c := evaluate h w gts segm in
  indiv_tp c = total (fun gt : mask => how_many h w (fun p => gt (fst p) (snd p) && detected h w segm p)) gts /\
  indiv_tpfn c = total (fun gt : mask => how_many h w (fun p => gt (fst p) (snd p))) gts /\
  total_tpfp c = how_many h w (fun p => segm (fst p) (snd p)) /\
  total_tp c <= how_many h w (fun q => segm (fst q) (snd q) && existsb (fun gt : mask => detected h w gt q) gts) /\
  0 <= indiv_tp c <= indiv_tpfn c /\ 0 <= total_tp c <= total_tpfp c.
Proof.
  intros h w gts segm Hh Hw c. split; [exact (evaluate_tp h w gts segm Hh Hw)|]. split; [exact (evaluate_tpfn h w gts segm)|].
  split; [reflexivity|]. split; [exact (evaluate_total_tp h w gts segm Hh Hw)|]. exact (evaluate_bounds h w gts segm Hh Hw).
Qed.
Print Assumptions C71_matching.

(** more edge pixels never lower the recall, and covering the ground truth makes it complete *)
Theorem C71_monotone : forall h w gts s1 s2, 0 <= h -> 0 <= w -> (forall i j, s1 i j = true -> s2 i j = true) ->
  indiv_tp (evaluate h w gts s1) <= indiv_tp (evaluate h w gts s2) /\ indiv_tpfn (evaluate h w gts s1) = indiv_tpfn (evaluate h w gts s2).
Proof. intros h w gts s1 s2 Hh Hw H. split; [exact (evaluate_mono h w gts s1 s2 Hh Hw H)|]. rewrite !evaluate_tpfn. reflexivity. Qed.
Print Assumptions C71_monotone.
Theorem C71_full_recall : forall h w gts segm, 0 <= h -> 0 <= w -> (forall gt : mask, In gt gts -> forall i j, gt i j = true -> segm i j = true) ->
  indiv_tp (evaluate h w gts segm) = indiv_tpfn (evaluate h w gts segm).
Proof. exact evaluate_full. Qed.
Print Assumptions C71_full_recall.

(** a perfect detection does not reach precision 1: two neighbouring edge pixels of a 100 x 100 image share one match *)
Definition pair_mask : mask := fun i j => (i =? 50) && ((j =? 50) || (j =? 51)).
Theorem C71_perfect_precision_refuted : exists h w gt, 0 < h /\ 0 < w /\
  indiv_tp (evaluate h w [gt] gt) = indiv_tpfn (evaluate h w [gt] gt) /\ total_tp (evaluate h w [gt] gt) < total_tpfp (evaluate h w [gt] gt).
Proof. exists 100, 100, pair_mask. split; [lia|]. split; [lia|]. vm_compute. split; reflexivity. Qed.
Print Assumptions C71_perfect_precision_refuted.

(** the sweep: every bin gets the counts of some threshold s not above its own t, and the two edge masks differ only
    by pixels of value s *)
Theorem C71_sweep : forall {C} img (eval : list bool -> C) ts, img <> [] -> rising ts ->
  Forall2 (fun t c => exists s, In s ts /\ s <= t /\ (forall v, In v img -> s <= v -> t <= v \/ v = s) /\ c = eval (map (fun v => s <=? v) img))
    ts (accumulate img eval ts).
Proof.
  intros C img eval ts N R. refine (Forall2_weaken _ _ _ _ _ (accumulate_spec img eval ts N R)).
  intros t c (s & A & (B & D) & E). exists s. auto.
Qed.
Print Assumptions C71_sweep.
(** so it is exact when no pixel value is a threshold ... *)
Theorem C71_sweep_exact : forall {C} img (eval : list bool -> C) ts, img <> [] -> rising ts -> (forall t, In t ts -> ~ In t img) ->
  accumulate img eval ts = map (fun t => eval (map (fun v => t <=? v) img)) ts.
Proof. intros C. exact accumulate_exact. Qed.
Print Assumptions C71_sweep_exact.
(** ... and wrong otherwise, with the default 99 bins: the pixels of value 2 stay edges at the threshold 5 *)
Theorem C71_sweep_refuted : exists img t c, img <> [] /\ In (t, c) (combine (thresholds 99) (accumulate img (fun b => count (fun x => x) b) (thresholds 99))) /\
  c <> count (fun v => t <=? v) img.
Proof. exists [2; 200], 5, 2. split; [discriminate|]. split; [vm_compute; auto|]. vm_compute. discriminate. Qed.
Print Assumptions C71_sweep_refuted.

(** scores of counters within their bounds lie in [0,1]; the best score reported is one of the interpolation points, with
    its own recall, precision and F-measure, and no score and no other interpolation point is better *)
Theorem C71_best : forall l, l <> [] -> Forall (fun tc => 0 <= fst tc <= 255 /\ 0 <= indiv_tp (snd tc) <= indiv_tpfn (snd tc) /\ 0 <= total_tp (snd tc) <= total_tpfp (snd tc)) l ->
  let scores := map (fun tc => score_of (fst tc) (snd tc)) l in
  exists m, FindMaxFMeasure scores = Some m /\
  (0 <= threshold m <= 1 /\ 0 <= recall m <= 1 /\ 0 <= precision m <= 1)%Q /\ fmeasure m = CalcFMeasure (recall m) (precision m) /\
  (forall s, In s scores -> fmeasure s <= fmeasure m)%Q /\
  (forall i a b k, nth_error scores i = Some a -> nth_error scores (S i) = Some b -> (0 <= k <= 100)%Z ->
    let x := inject_Z k / 100 in
    CalcFMeasure ((1 - x) * recall a + x * recall b) ((1 - x) * precision a + x * precision b) <= fmeasure m)%Q.
Proof.
  intros l N F scores. destruct (FindMax_spec scores) as (m & M & (S1 & S2 & S3 & S4) & B & I).
  - destruct l; [congruence|discriminate].
  - unfold scores. apply Forall_forall. intros s S. apply in_map_iff in S as (tc & <- & T). rewrite Forall_forall in F.
    destruct (F tc T) as (F1 & F2 & F3). apply score_sane; auto.
  - exists m. split; auto. split; [split; [exact S1|split; [exact S2|exact S3]]|]. split; [exact S4|]. split; [exact B|].
    intros i a b k A0 B0 K. apply (I i a b (inject_Z k / 100)%Q A0 B0). unfold weights. apply in_map_iff. exists k. split; auto. apply in_zrange. lia.
Qed.
Print Assumptions C71_best.

(** counters are summed over the images modulo 2^64, whatever the order of the images *)
Theorem C71_cumulate : forall l, cumulate l = Cnt (total indiv_tp l mod 2 ^ 64) (total indiv_tpfn l mod 2 ^ 64) (total total_tp l mod 2 ^ 64) (total total_tpfp l mod 2 ^ 64).
Proof. exact cumulate_sums. Qed.
Print Assumptions C71_cumulate.
Theorem C71_order : forall a b, Permutation a b -> cumulate a = cumulate b.
Proof. exact cumulate_perm. Qed.
Print Assumptions C71_order.

(** the area under the precision-recall curve is never computed: equal recalls give 0, recalls which do not reach both
    0 and 1 make interp1 throw, and otherwise the sum reads one element past the end *)
Theorem C71_area : forall l,
  ((forall a b, In a l -> In b l -> recall a == recall b)%Q -> area l = Ok 0%Q) /\
  ((exists a b, In a l /\ In b l /\ ~ recall a == recall b)%Q ->
    (area l = UB /\ exists a b, In a l /\ In b l /\ recall a <= 0 /\ 1 <= recall b)%Q \/
    (area l = Throw /\ ((forall a, In a l -> 0 < recall a) \/ (forall b, In b l -> recall b < 1)))%Q).
Proof. intros l. exact (conj (area_flat l) (area_faults l)). Qed.
Print Assumptions C71_area.
Definition curve : list score := [score_of 10 (Cnt 4 4 1 4); score_of 20 (Cnt 2 4 1 2); score_of 30 (Cnt 0 4 0 1)].
Theorem C71_area_refuted : exists l, (exists a b, In a l /\ In b l /\ recall a < recall b)%Q /\ area l = UB.
Proof.
  exists curve. split.
  - exists (score_of 30 (Cnt 0 4 0 1)), (score_of 10 (Cnt 4 4 1 4)). split; [right; right; left; reflexivity|]. split; [left; reflexivity|reflexivity].
  - assert (D : exists a b, In a curve /\ In b curve /\ ~ (recall a == recall b)%Q).
    { exists (score_of 30 (Cnt 0 4 0 1)), (score_of 10 (Cnt 4 4 1 4)). split; [right; right; left; reflexivity|]. split; [left; reflexivity|]. intros X; discriminate X. }
    destruct (area_faults curve D) as [[E _]|[_ [X|X]]]; [exact E| |].
    + specialize (X (score_of 30 (Cnt 0 4 0 1)) (or_intror (or_intror (or_introl eq_refl)))). discriminate X.
    + specialize (X (score_of 10 (Cnt 4 4 1 4)) (or_introl eq_refl)). discriminate X.
Qed.
Print Assumptions C71_area_refuted.

Example C71_ex_thresholds : firstn 5 (thresholds 99) = [2; 5; 7; 10; 12] /\ length (thresholds 99) = 99%nat /\ nth 98 (thresholds 99) 0 = 255.
Proof. vm_compute. auto. Qed.
Example C71_ex_sweep : accumulate [3; 9; 9; 200] (fun b => count (fun x => x) b) [2; 5; 7; 10; 250] = [4; 3; 3; 1; 0] /\
  (forall t, In t [2; 5; 7; 10; 250] -> ~ In t [3; 9; 9; 200]).
Proof. split; [reflexivity|]. cbn. intros t H. repeat (destruct H as [ <- |H]; [lia|]). destruct H. Qed.
Example C71_ex_matching : evaluate 100 100 [pair_mask; fun i j => (i =? 51) && (j =? 53)] pair_mask = Cnt 2 3 1 2.
Proof. vm_compute. reflexivity. Qed.
Example C71_ex_best : match FindMaxFMeasure curve with Some m => (Qred (recall m), Qred (precision m)) = (31 # 50, 11 # 25)%Q | None => False end.
Proof. vm_compute. reflexivity. Qed.
