From Coq Require Import ZArith List Lia Bool.
From Verif Require Import Model.Distances Model.Simd Model.JointHist Spec.JointHist Proofs.Simd.
Import ListNotations.
Open Scope Z_scope.

(** * association lists *)
Lemma key_eqb_spec a b : reflect (a = b) (key_eqb a b).
Proof. unfold key_eqb. destruct (list_eq_dec Z.eq_dec a b); constructor; assumption. Qed.
Lemma key_eqb_refl a : key_eqb a a = true.
Proof. destruct (key_eqb_spec a a); congruence. Qed.

Definition weigh (f : key -> Z) (m : sparse) : Z := zsum (map (fun e => f (fst e) * snd e) m).
Lemma weigh_incr f m k : weigh f (incr m k) = weigh f m + f k.
Proof.
  unfold weigh. induction m as [|[k' c] m IH]; cbn [incr map zsum fold_right fst snd]; [ lia |].
  destruct (key_eqb_spec k k') as [->|N]; cbn [map zsum fold_right fst snd]; unfold zsum in *; lia.
Qed.
Lemma weigh_tally f l : forall m, weigh f (fold_left incr l m) = weigh f m + zsum (map f l).
Proof.
  induction l as [|k l IH]; intro m; cbn [fold_left map zsum fold_right]; [ unfold zsum; cbn; lia |].
  rewrite IH, weigh_incr. unfold zsum. lia.
Qed.
Lemma look_incr m k q : look (incr m k) q = look m q + if key_eqb q k then 1 else 0.
Proof.
  induction m as [|[k' c] m IH]; cbn [incr look].
  - destruct (key_eqb q k); lia.
  - destruct (key_eqb_spec k k') as [->|N]; cbn [look].
    + destruct (key_eqb q k'); lia.
    + destruct (key_eqb_spec q k') as [->|M]; [| exact IH ]. destruct (key_eqb_spec k' k); [ congruence | lia ].
Qed.
Lemma look_tally l q : forall m, look (fold_left incr l m) q = look m q + occurrences (key_eqb q) l.
Proof.
  unfold occurrences. induction l as [|k l IH]; intro m; cbn [fold_left filter]; [ cbn; lia |].
  rewrite IH, look_incr. destruct (key_eqb q k); cbn [length]; lia.
Qed.
Lemma incr_keys m k x : In x (map fst (incr m k)) <-> In x (map fst m) \/ x = k.
Proof.
  induction m as [|[k' c] m IH]; cbn [incr map fst In]; [ intuition |].
  destruct (key_eqb_spec k k') as [->|N]; cbn [map fst In]; [| rewrite IH ]; intuition.
Qed.
Lemma incr_nodup m k : NoDup (map fst m) -> NoDup (map fst (incr m k)).
Proof.
  induction m as [|[k' c] m IH]; cbn [incr map fst]; intro H; [ constructor; [ intros [] | constructor ] |].
  inversion H as [|? ? N H']; subst. destruct (key_eqb_spec k k') as [->|M]; cbn [map fst]; constructor; auto.
  rewrite incr_keys. intros [I|E]; auto.
Qed.
Lemma tally_nodup l : forall m, NoDup (map fst m) -> NoDup (map fst (fold_left incr l m)).
Proof. induction l as [|k l IH]; intros m H; cbn; auto. apply IH, incr_nodup, H. Qed.
Lemma tally_keys l x : forall m, In x (map fst (fold_left incr l m)) <-> In x (map fst m) \/ In x l.
Proof.
  induction l as [|k l IH]; intro m; cbn [fold_left]; [ cbn; intuition |]. rewrite IH, incr_keys. cbn [In]. intuition.
Qed.
Lemma incr_pos m k : Forall (fun e => 0 < snd e) m -> Forall (fun e => 0 < snd e) (incr m k).
Proof.
  induction 1 as [|[k' c] m P H IH]; cbn [incr]; [ repeat constructor |].
  destruct (key_eqb k k'); constructor; cbn [snd] in *; auto; lia.
Qed.
Lemma tally_pos l : forall m, Forall (fun e => 0 < snd e) m -> Forall (fun e => 0 < snd e) (fold_left incr l m).
Proof. induction l as [|k l IH]; intros m H; cbn; auto. apply IH, incr_pos, H. Qed.
Lemma look_in m k c : NoDup (map fst m) -> In (k, c) m -> look m k = c.
Proof.
  induction m as [|[k' c'] m IH]; cbn [look map fst In]; intros ND I; [ destruct I |]; destruct I as [E|I].
  - injection E as -> ->. now rewrite key_eqb_refl.
  - inversion ND; subst. destruct (key_eqb_spec k k') as [->|]; [| auto ]. exfalso. apply H1. apply in_map_iff. now exists (k', c).
Qed.

(** * ranges *)
Lemma fold_min_spec l : forall x, (fold_left Z.min l x = x \/ In (fold_left Z.min l x) l) /\ fold_left Z.min l x <= x /\ Forall (fun v => fold_left Z.min l x <= v) l.
Proof.
  induction l as [|a l IH]; intro x; cbn [fold_left].
  - split; [ now left |]. split; [ lia | constructor ].
  - destruct (IH (Z.min x a)) as (A & B & C). split; [| split ].
    + destruct A as [A|A]; [| right; now right ]. rewrite A. destruct (Z.min_spec x a) as [[_ E]|[_ E]]; rewrite E; [ now left | right; now left ].
    + lia.
    + constructor; [ lia | exact C ].
Qed.
Lemma fold_max_spec l : forall x, (fold_left Z.max l x = x \/ In (fold_left Z.max l x) l) /\ x <= fold_left Z.max l x /\ Forall (fun v => v <= fold_left Z.max l x) l.
Proof.
  induction l as [|a l IH]; intro x; cbn [fold_left].
  - split; [ now left |]. split; [ lia | constructor ].
  - destruct (IH (Z.max x a)) as (A & B & C). split; [| split ].
    + destruct A as [A|A]; [| right; now right ]. rewrite A. destruct (Z.max_spec x a) as [[_ E]|[_ E]]; rewrite E; [ right; now left | now left ].
    + lia.
    + constructor; [ lia | exact C ].
Qed.
Lemma list_min_spec l : l <> [] -> In (list_min l) l /\ Forall (fun v => list_min l <= v) l.
Proof.
  destruct l as [|x l]; [ congruence |]. intros _. cbn [list_min]. destruct (fold_min_spec l x) as (A & B & C).
  split; [ destruct A as [->|A]; [ now left | now right ] | constructor; auto ].
Qed.
Lemma list_max_spec l : l <> [] -> In (list_max l) l /\ Forall (fun v => v <= list_max l) l.
Proof.
  destruct l as [|x l]; [ congruence |]. intros _. cbn [list_max]. destruct (fold_max_spec l x) as (A & B & C).
  split; [ destruct A as [->|A]; [ now left | now right ] | constructor; auto ].
Qed.
Lemma range_of_spec skip img : img <> [] -> range_ok skip img ->
  let rg := range_of skip img in Forall (fun v => fst rg <= v <= snd rg) img /\ snd rg - fst rg < 2^31 - 2 /\ fst rg <= snd rg /\ lower_end skip img (fst rg).
Proof.
  intros NE OK. destruct skip as [[a b]|]; cbn [range_of fst snd lower_end range_ok] in *.
  - destruct OK as [F B]. split; [ exact F |]. split; [ exact B |]. split; [| reflexivity ].
    destruct img as [|x l]; [ congruence |]. inversion F; subst. lia.
  - destruct (list_min_spec img NE) as [I1 F1]. destruct (list_max_spec img NE) as [I2 F2].
    rewrite Forall_forall in F1, F2. split; [ apply Forall_forall; auto |]. split; [ now apply OK |]. split; [ now apply F1 |].
    split; [ exact I1 | now apply Forall_forall ].
Qed.
Lemma max_states_ok step rg : 1 <= step < 2^31 -> snd rg - fst rg < 2^31 - 2 -> fst rg <= snd rg ->
  max_states step rg = Some ((snd rg - fst rg) / step + 1).
Proof.
  intros S B L. unfold max_states, sop. set (d := snd rg - fst rg) in *.
  destruct ((- 2 ^ (32 - 1) <=? d) && (d <? 2 ^ (32 - 1))) eqn:E.
  - cbn [bind]. rewrite Z.mod_small by lia. assert (d / step <= d) by (apply Z.div_le_upper_bound; nia).
    destruct (d / step + 1 <? 2^31 - 1) eqn:F; [ reflexivity | lia ].
  - exfalso. rewrite andb_false_iff in E. change (2 ^ (32 - 1)) with (2^31) in E. lia.
Qed.
Lemma elem_idx_ok step rg v : 1 <= step < 2^31 -> snd rg - fst rg < 2^31 - 2 -> fst rg <= v <= snd rg ->
  elem_idx step (fst rg) v = Some (quantised step (fst rg) v) /\ 0 <= quantised step (fst rg) v < (snd rg - fst rg) / step + 1.
Proof.
  intros S B L. unfold elem_idx, quantised, sop. set (d := v - fst rg).
  assert (0 <= d / step <= (snd rg - fst rg) / step).
  { split; [ apply Z.div_pos; lia | apply Z.div_le_mono; lia ]. }
  destruct ((- 2 ^ (32 - 1) <=? d) && (d <? 2 ^ (32 - 1))) eqn:E.
  - cbn [bind]. split; [| lia ]. f_equal. rewrite signed32_range by lia. destruct (Z.ltb_spec 1 step).
    + rewrite Z.quot_div_nonneg by lia. reflexivity.
    + replace step with 1 by lia. now rewrite Z.div_1_r.
  - exfalso. rewrite andb_false_iff in E. change (2 ^ (32 - 1)) with (2^31) in E. lia.
Qed.

(** * the whole computation *)
Lemma mapM_all {A B} (f : A -> option B) (g : A -> B) l : Forall (fun x => f x = Some (g x)) l -> mapM f l = Some (map g l).
Proof. induction 1 as [|x l E H IH]; cbn [mapM map]; [ reflexivity |]. rewrite E. cbn [bind]. rewrite IH. reflexivity. Qed.

Definition ranges (skips : list (option (Z * Z))) imgs := map2 range_of skips imgs.
Definition mins skips imgs := map fst (ranges skips imgs).
Definition dims_of step skips imgs := map (fun rg => (snd rg - fst rg) / step + 1) (ranges skips imgs).

Lemma ranges_ok step skips imgs n : inputs_ok step skips imgs n ->
  Forall2 (fun rg img => Forall (fun v => fst rg <= v <= snd rg) img /\ snd rg - fst rg < 2^31 - 2 /\ fst rg <= snd rg) (ranges skips imgs) imgs.
Proof.
  intros (S & _ & N & L & R). unfold ranges. revert L. induction R as [|s i ss is OK R IH]; intro L; cbn [map2]; constructor.
  - inversion L; subst. assert (i <> []) by (destruct i; [ cbn in N; lia | congruence ]).
    destruct (range_of_spec s i) as (A & B & C & _); auto.
  - apply IH. now inversion L.
Qed.
Lemma lower_ends step skips imgs n : inputs_ok step skips imgs n ->
  length (mins skips imgs) = length imgs /\
  forall i s img, nth_error skips i = Some s -> nth_error imgs i = Some img -> exists mn, nth_error (mins skips imgs) i = Some mn /\ lower_end s img mn.
Proof.
  intros (S & _ & N & L & R). unfold mins, ranges. revert L. induction R as [|s i ss is OK R IH]; intro L; cbn [map2 map length].
  - split; [ reflexivity |]. intros [|k]; discriminate.
  - inversion L as [|? ? Ln L']; subst. destruct (IH L') as [A B]. split; [ now rewrite A |].
    intros [|k] s' img' E1 E2; cbn [nth_error] in *.
    + assert (s' = s) by congruence. assert (img' = i) by congruence. subst. exists (fst (range_of s i)). split; [ reflexivity |].
      apply range_of_spec; auto. destruct i; [ cbn in N; lia | congruence ].
    + eapply B; eauto.
Qed.
Lemma dims_ok step skips imgs n : inputs_ok step skips imgs n -> mapM (max_states step) (ranges skips imgs) = Some (dims_of step skips imgs).
Proof.
  intro H. pose proof (ranges_ok _ _ _ _ H) as R. destruct H as (S & _). unfold dims_of. apply mapM_all. clear -S R.
  induction R as [|rg img rgs imgs (A & B & C) R IH]; constructor; auto. now apply max_states_ok.
Qed.

Definition keys_of step skips imgs n := map (bins step (mins skips imgs) imgs) (seq 0 n).
Lemma indices_ok step rgs imgs n e : 1 <= step < 2^31 ->
  Forall2 (fun rg img => Forall (fun v => fst rg <= v <= snd rg) img /\ snd rg - fst rg < 2^31 - 2 /\ fst rg <= snd rg) rgs imgs ->
  Forall (fun img => length img = n) imgs -> (e < n)%nat ->
  indices step (map fst rgs) (map (fun img => nth e img 0) imgs) = Some (bins step (map fst rgs) imgs e) /\
  Forall2 (fun k d => 0 <= k < d) (bins step (map fst rgs) imgs e) (map (fun rg => (snd rg - fst rg) / step + 1) rgs).
Proof.
  intros S R L E. unfold indices, bins. induction R as [|rg img rgs imgs (A & B & C) R IH]; cbn [map mapM2 zip]; [ split; [ reflexivity | constructor ] |].
  inversion L as [|? ? Ln L']; subst. rewrite Forall_forall in A.
  assert (V : fst rg <= nth e img 0 <= snd rg) by (apply A, nth_In; lia).
  destruct (elem_idx_ok step rg _ S B V) as [E1 E2]. rewrite E1. cbn [bind]. destruct (IH L') as [F1 F2]. rewrite F1. cbn [bind].
  split; [ reflexivity | constructor; assumption ].
Qed.
Lemma fold_keys {A} (f : A -> key -> option A) (idx : list Z -> option key) (cols : list (list Z)) : forall ks st,
  Forall2 (fun col k => idx col = Some k) cols ks ->
  fold_left (fun st col => bind st (fun s => bind (idx col) (fun k => f s k))) cols st = fold_left (fun st k => bind st (fun s => f s k)) ks st.
Proof.
  induction cols as [|c cols IH]; intros ks st F; inversion F; subst; cbn [fold_left]; [ reflexivity |].
  rewrite <- IH by eassumption. f_equal. destruct st; cbn [bind]; [| reflexivity ]. rewrite H1. reflexivity.
Qed.
Lemma fold_total {A} (f : A -> key -> A) ks : forall s, fold_left (fun st k => bind st (fun s => Some (f s k))) ks (Some s) = Some (fold_left f ks s).
Proof. induction ks as [|k ks IH]; intro s; cbn [fold_left bind]; auto. Qed.

Lemma columns_keys step skips imgs n : inputs_ok step skips imgs n ->
  Forall2 (fun col k => indices step (mins skips imgs) col = Some k) (columns imgs) (keys_of step skips imgs n) /\
  Forall (fun k => Forall2 (fun i d => 0 <= i < d) k (dims_of step skips imgs)) (keys_of step skips imgs n).
Proof.
  intro H. pose proof (ranges_ok _ _ _ _ H) as R. destruct H as (S & NE & N & L & _).
  unfold columns, keys_of, mins, dims_of.
  assert (E : length (nth 0 imgs []) = n).
  { destruct imgs; [ congruence |]. inversion L; subst. reflexivity. }
  rewrite E.
  assert (I : forall e, In e (seq 0 n) -> (e < n)%nat) by (intros e I; apply in_seq in I; lia).
  clear NE N E. induction (seq 0 n) as [|e es IH]; cbn [map]; [ split; constructor |].
  destruct (indices_ok step (ranges skips imgs) imgs n e S R L (I e (or_introl eq_refl))) as [A B].
  destruct IH as [C D]; [ intros; apply I; now right |]. split; constructor; assumption.
Qed.
Lemma sparse_is_tally step skips imgs n : inputs_ok step skips imgs n ->
  hist_sparse step skips imgs = Some (fold_left add_sparse (keys_of step skips imgs n) (map (fun _ => []) imgs, [])).
Proof.
  intro H. unfold hist_sparse. fold (ranges skips imgs). rewrite (dims_ok _ _ _ _ H). cbn [bind].
  destruct (columns_keys _ _ _ _ H) as [F _]. fold (mins skips imgs).
  rewrite (fold_keys (fun s k => Some (add_sparse s k)) _ _ _ _ F). apply fold_total.
Qed.
Lemma add_sparse_snd ks : forall st, snd (fold_left add_sparse ks st) = fold_left incr ks (snd st).
Proof. induction ks as [|k ks IH]; intro st; cbn [fold_left]; [ reflexivity |]. rewrite IH. reflexivity. Qed.
Lemma add_sparse_fst ks d : Forall (fun k => length k = d) ks -> forall st, length (fst st) = d ->
  length (fst (fold_left add_sparse ks st)) = d /\
  forall i, (i < d)%nat -> nth i (fst (fold_left add_sparse ks st)) [] = fold_left incr (map (fun k => [nth i k 0]) ks) (nth i (fst st) []).
Proof.
  induction 1 as [|k ks Lk H IH]; intros st L; cbn [fold_left map]; [ auto |].
  assert (L1 : length (fst (add_sparse st k)) = d).
  { unfold add_sparse. cbn [fst]. rewrite map2_length, L, Lk. apply Nat.min_id. }
  destruct (IH _ L1) as [A B]. split; [ exact A |]. intros i I. rewrite B by exact I. f_equal.
  unfold add_sparse. cbn [fst]. revert L Lk I. clear. generalize (fst st). intros m. revert k i d.
  induction m as [|x m IH]; intros k i d L Lk I; [ cbn in L; lia |]. destruct k as [|y k]; [ cbn in *; lia |].
  destruct i as [|i]; cbn [map2 nth]; [ reflexivity |]. apply (IH k i (pred d)); cbn in *; lia.
Qed.

Lemma key_eqb_single a b : key_eqb [a] [b] = (a =? b).
Proof. destruct (key_eqb_spec [a] [b]) as [E|N]; destruct (Z.eqb_spec a b); try reflexivity; congruence. Qed.
Lemma keys_length step skips imgs n : inputs_ok step skips imgs n -> Forall (fun k => length k = length imgs) (keys_of step skips imgs n).
Proof.
  intro H. pose proof (lower_ends _ _ _ _ H) as [L _]. apply Forall_forall. intros k I. unfold keys_of in I. apply in_map_iff in I.
  destruct I as (e & <- & _). unfold bins. revert L. generalize (mins skips imgs). clear. induction imgs as [|i is IH]; intros [|m ms] L; cbn in *; auto; try lia.
Qed.
Lemma occ_map {A B} (p : B -> bool) (f : A -> B) l : occurrences p (map f l) = occurrences (fun x => p (f x)) l.
Proof.
  unfold occurrences. f_equal. induction l as [|x l IH]; cbn [map filter]; [ reflexivity |].
  destruct (p (f x)); cbn [length]; now rewrite IH.
Qed.
Lemma occ_ext {A} (p q : A -> bool) l : (forall x, p x = q x) -> occurrences p l = occurrences q l.
Proof. intro H. unfold occurrences. do 2 f_equal. now apply filter_ext. Qed.

(** counts of the sparse result *)
Lemma sparse_counts step skips imgs n : inputs_ok step skips imgs n -> exists margs joint, hist_sparse step skips imgs = Some (margs, joint) /\
  length margs = length imgs /\
  (forall k, look joint k = occurrences (fun e => key_eqb k (bins step (mins skips imgs) imgs e)) (seq 0 n)) /\
  (forall i k, (i < length imgs)%nat -> look (nth i margs []) [k] = occurrences (fun e => k =? nth i (bins step (mins skips imgs) imgs e) 0) (seq 0 n)) /\
  (forall i k, (i < length imgs)%nat -> look (nth i margs []) [k] = zsum (map snd (filter (fun kc => nth i (fst kc) 0 =? k) joint))) /\
  zsum (map snd joint) = Z.of_nat n /\ (forall i, (i < length imgs)%nat -> zsum (map snd (nth i margs [])) = Z.of_nat n) /\
  NoDup (map fst joint) /\ Forall (fun kc => 0 < snd kc) joint.
Proof.
  intro H. rewrite (sparse_is_tally _ _ _ _ H). set (ks := keys_of step skips imgs n).
  pose proof (keys_length _ _ _ _ H) as KL. fold ks in KL.
  set (st0 := (map (fun _ => []) imgs, []) : list sparse * sparse).
  destruct (add_sparse_fst ks (length imgs) KL st0) as [LF NF]; [ apply map_length |].
  assert (J : snd (fold_left add_sparse ks st0) = fold_left incr ks []) by apply add_sparse_snd.
  assert (Z0 : forall i, nth i (fst st0) ([] : sparse) = []).
  { intro i. unfold st0. cbn [fst]. clear. revert i. induction imgs as [|x l IH]; intros [|i]; cbn; auto. }
  destruct (fold_left add_sparse ks st0) as [margs joint] eqn:E. cbn [fst snd] in *. exists margs, joint.
  split; [ reflexivity |]. split; [ exact LF |].
  assert (Ones : forall l : list key, zsum (map (fun _ => 1) l) = Z.of_nat (length l)).
  { unfold zsum. induction l; cbn [map fold_right length]; lia. }
  assert (Tot : forall m : sparse, weigh (fun _ => 1) m = zsum (map snd m)).
  { intro m. unfold weigh. f_equal. apply map_ext. intros [? ?]. cbn [fst snd]. lia. }
  assert (Mk : forall i k, (i < length imgs)%nat -> look (nth i margs []) [k] = occurrences (fun key => k =? nth i key 0) ks).
  { intros i k I. rewrite NF, Z0 by exact I. rewrite look_tally. cbn [look]. rewrite Z.add_0_l, occ_map.
    apply occ_ext. intro x. apply key_eqb_single. }
  split; [| split; [| split; [| split; [| split; [| split ]]]]].
  - intro k. rewrite J, look_tally. cbn [look]. rewrite Z.add_0_l. unfold ks, keys_of. now rewrite occ_map.
  - intros i k I. rewrite Mk by exact I. unfold ks, keys_of. now rewrite occ_map.
  - intros i k I. rewrite Mk by exact I.
    pose proof (weigh_tally (fun key => if nth i key 0 =? k then 1 else 0) ks []) as W. rewrite <- J in W.
    unfold weigh in W. cbn [map zsum fold_right] in W. rewrite Z.add_0_l in W.
    transitivity (zsum (map (fun key => if nth i key 0 =? k then 1 else 0) ks)).
    + unfold occurrences, zsum. clear. induction ks as [|x l IH]; cbn [map filter fold_right]; [ reflexivity |].
      rewrite Z.eqb_sym. destruct (nth i x 0 =? k); cbn [length]; lia.
    + etransitivity; [ symmetry; exact W |]. unfold zsum. clear. induction joint as [|[x c] l IH]; cbn [map filter fold_right fst snd]; [ reflexivity |].
      destruct (nth i x 0 =? k); cbn [map fold_right snd]; lia.
  - pose proof (weigh_tally (fun _ => 1) ks []) as W. rewrite <- J in W. rewrite Tot, Ones in W. rewrite W. unfold weigh. cbn.
    unfold ks, keys_of. now rewrite map_length, seq_length.
  - intros i I. rewrite NF, Z0 by exact I. pose proof (weigh_tally (fun _ => 1) (map (fun k => [nth i k 0]) ks) []) as W.
    rewrite Tot, Ones, map_length in W. rewrite W. unfold weigh. cbn. unfold ks, keys_of. now rewrite map_length, seq_length.
  - rewrite J. apply tally_nodup. constructor.
  - rewrite J. apply tally_pos. constructor.
Qed.

(** * dense matrices *)
Lemma volume_pos dims k : Forall2 (fun i d => 0 <= i < d) k dims -> 0 < volume dims.
Proof. unfold volume. induction 1; cbn [fold_right]; [ lia |]. nia. Qed.
Lemma offset_ok dims k : Forall2 (fun i d => 0 <= i < d) k dims -> exists o, 0 <= o < volume dims /\ forall acc, offset dims k acc = Some (acc * volume dims + o).
Proof.
  unfold volume. induction 1 as [|i d k dims B H (o & O & IH)]; cbn [fold_right].
  - exists 0. split; [ lia |]. intro acc. cbn [offset]. f_equal. lia.
  - set (v := fold_right Z.mul 1 dims) in *. exists (i * v + o). split; [ nia |]. intro acc. cbn [offset].
    destruct (0 <=? i) eqn:A; [| lia ]. destruct (i <? d) eqn:C; [| lia ]. cbn [andb]. rewrite IH. f_equal. lia.
Qed.
Lemma offset_inj dims k k' o : Forall2 (fun i d => 0 <= i < d) k dims -> Forall2 (fun i d => 0 <= i < d) k' dims ->
  offset dims k 0 = Some o -> offset dims k' 0 = Some o -> k = k'.
Proof.
  revert k k'. assert (G : forall acc acc' k k', Forall2 (fun i d => 0 <= i < d) k dims -> Forall2 (fun i d => 0 <= i < d) k' dims ->
    offset dims k acc = Some o -> offset dims k' acc' = Some o -> acc = acc' /\ k = k').
  { induction dims as [|d dims IH]; intros acc acc' k k' F F' A A'; inversion F as [|i ? ks ? B Fs]; inversion F' as [|i' ? ks' ? B' Fs']; subst; cbn [offset] in *.
    - split; [ congruence | reflexivity ].
    - destruct (0 <=? i) eqn:C1; [| lia ]. destruct (i <? d) eqn:C2; [| lia ].
      destruct (0 <=? i') eqn:C3; [| lia ]. destruct (i' <? d) eqn:C4; [| lia ]. cbn [andb] in *.
      destruct (IH _ _ _ _ Fs Fs' A A') as [E1 E2]. subst ks'. assert (acc = acc') by nia. subst. split; [ reflexivity |]. f_equal. lia. }
  intros k k' F F' A A'. now destruct (G 0 0 k k' F F' A A').
Qed.
Lemma bump_ok : forall n l, (n < length l)%nat -> exists l', bump l n = Some l' /\ length l' = length l /\
  forall j, nth j l' 0 = nth j l 0 + if (j =? n)%nat then 1 else 0.
Proof.
  induction n as [|n IH]; intros [|x l] L; cbn [length] in L; try lia; cbn [bump].
  - exists (x + 1 :: l). split; [ reflexivity |]. split; [ reflexivity |]. intros [|j]; cbn [nth Nat.eqb]; lia.
  - destruct (IH l) as (l' & E & L' & B); [ lia |]. rewrite E. cbn [bind]. exists (x :: l'). split; [ reflexivity |]. split; [ cbn; lia |].
    intros [|j]; cbn [nth Nat.eqb]; [ lia | apply B ].
Qed.
Definition dense_ok (dims : list Z) (m : list Z) (l : list key) : Prop :=
  length m = Z.to_nat (volume dims) /\
  forall k, Forall2 (fun i d => 0 <= i < d) k dims -> look_dense dims m k = Some (occurrences (key_eqb k) l).
Lemma dense_zeros dims : dense_ok dims (zeros dims) [].
Proof.
  split; [ apply repeat_length |]. intros k F. destruct (offset_ok dims k F) as (o & O & E). unfold look_dense. rewrite E. cbn [bind].
  unfold zeros, occurrences. cbn. rewrite Z.add_0_l || idtac.
  rewrite (nth_error_nth' _ 0) by (rewrite repeat_length; lia). f_equal. apply nth_repeat.
Qed.
Lemma dense_incr dims m l k : dense_ok dims m l -> Forall2 (fun i d => 0 <= i < d) k dims ->
  exists m', incr_dense dims m k = Some m' /\ dense_ok dims m' (l ++ [k]).
Proof.
  intros [L Q] F. destruct (offset_ok dims k F) as (o & O & E). specialize (E 0). unfold incr_dense. rewrite E. cbn [bind].
  rewrite Z.mul_0_l, Z.add_0_l in *. destruct (bump_ok (Z.to_nat o) m) as (m' & B & L' & N); [ lia |]. exists m'.
  split; [ exact B |]. split; [ lia |]. intros q G. specialize (Q q G). unfold look_dense in *.
  destruct (offset_ok dims q G) as (o' & O' & E'). specialize (E' 0). rewrite Z.mul_0_l, Z.add_0_l in E'.
  rewrite E' in *. cbn [bind] in *. rewrite (nth_error_nth' _ 0) in Q by lia. rewrite (nth_error_nth' _ 0) by lia.
  f_equal. assert (Q' : nth (Z.to_nat o') m 0 = occurrences (key_eqb q) l) by congruence. rewrite N, Q'.
  unfold occurrences. rewrite filter_app, app_length. cbn [filter]. destruct (key_eqb_spec q k) as [->|NE].
  - assert (o = o') by congruence. subst. rewrite Nat.eqb_refl. cbn [length]. lia.
  - destruct (Nat.eqb_spec (Z.to_nat o') (Z.to_nat o)) as [EE|]; [| cbn [length]; lia ]. exfalso. apply NE.
    assert (o = o') by lia. subst o'. eapply offset_inj; eauto.
Qed.
Definition dense_all (dims : list Z) (st : list (list Z) * list Z) (l : list key) : Prop :=
  Forall2 (fun d m => length m = Z.to_nat d) dims (fst st) /\
  (forall i, (i < length dims)%nat -> dense_ok [nth i dims 0] (nth i (fst st) []) (map (fun k => [nth i k 0]) l)) /\
  dense_ok dims (snd st) l.
Lemma margs_step dims : forall margs k l, (forall i, (i < length dims)%nat -> dense_ok [nth i dims 0] (nth i margs []) (map (fun k => [nth i k 0]) l)) ->
  Forall2 (fun d m => length m = Z.to_nat d) dims margs -> Forall2 (fun i d => 0 <= i < d) k dims ->
  exists margs', mapM2 (fun dm i => incr_dense [fst dm] (snd dm) [i]) (combine dims margs) k = Some margs' /\
    Forall2 (fun d m => length m = Z.to_nat d) dims margs' /\
    forall i, (i < length dims)%nat -> dense_ok [nth i dims 0] (nth i margs' []) (map (fun k => [nth i k 0]) l ++ [[nth i k 0]]).
Proof.
  induction dims as [|d dims IH]; intros margs k l D F K; inversion F as [|? m ? ms Lm Fs]; inversion K as [|i ? ks ? B Ks]; subst.
  - exists []. split; [ reflexivity |]. split; [ constructor |]. cbn. intros; lia.
  - cbn [combine mapM2 fst snd].
    destruct (dense_incr [d] m (map (fun k => [nth 0 k 0]) l) [i]) as (m' & E & O).
    { apply (D 0%nat). cbn. lia. } { repeat constructor; apply B. }
    rewrite E. cbn [bind].
    destruct (IH ms ks (map (fun k => tl k) l)) as (ms' & E' & F' & O').
    { intros j J. specialize (D (S j)). cbn [nth length] in D. rewrite map_map.
      assert (X : map (fun x => [nth j (tl x) 0]) l = map (fun k => [nth (S j) k 0]) l).
      { apply map_ext. intros [|? ?]; cbn; [ destruct j |]; reflexivity. }
      unfold key in *. rewrite X. apply D. lia. }
    { exact Fs. } { exact Ks. }
    rewrite E'. cbn [bind]. exists (m' :: ms'). split; [ reflexivity |]. split.
    + constructor; [| exact F' ]. destruct O as [O _]. rewrite O. unfold volume. cbn. f_equal. lia.
    + intros [|j] J; cbn [nth].
      * exact O.
      * specialize (O' j). rewrite map_map in O'.
        assert (X : map (fun x => [nth j (tl x) 0]) l = map (fun k => [nth (S j) k 0]) l).
        { apply map_ext. intros [|? ?]; cbn; [ destruct j |]; reflexivity. }
        unfold key in *. rewrite X in O'. apply O'. cbn in J. lia.
Qed.
Lemma dense_run dims ks : Forall (fun k => Forall2 (fun i d => 0 <= i < d) k dims) ks -> forall st l, dense_all dims st l ->
  exists st', fold_left (fun st k => bind st (fun s => add_dense dims s k)) ks (Some st) = Some st' /\ dense_all dims st' (l ++ ks).
Proof.
  induction 1 as [|k ks K H IH]; intros st l (F & M & J).
  - exists st. rewrite app_nil_r. split; [ reflexivity | exact (conj F (conj M J)) ].
  - cbn [fold_left bind]. unfold add_dense.
    destruct (margs_step dims (fst st) k l M F K) as (margs' & E & F' & M'). rewrite E. cbn [bind].
    destruct (dense_incr dims (snd st) l k J K) as (j' & EJ & OJ). rewrite EJ. cbn [bind].
    destruct (IH (margs', j') (l ++ [k])) as (st' & R & D).
    { split; [ exact F' |]. split; [| exact OJ ]. intros i I. cbn [fst]. rewrite map_app. apply M'. exact I. }
    exists st'. split; [ exact R |]. rewrite <- app_assoc in D. exact D.
Qed.
Lemma dims_of_length step skips imgs n : inputs_ok step skips imgs n -> length (dims_of step skips imgs) = length imgs.
Proof. intro H. apply lower_ends in H. destruct H as [L _]. unfold dims_of. unfold mins in L. rewrite map_length in *. exact L. Qed.
Lemma nth_map_zeros dims i : (i < length dims)%nat -> nth i (map (fun d => zeros [d]) dims) [] = zeros [nth i dims 0].
Proof. revert i. induction dims as [|d dims IH]; intros [|i] L; cbn in *; try lia; auto. apply IH. lia. Qed.
Lemma dense_counts step skips imgs n : inputs_ok step skips imgs n -> exists dims margs joint, hist_dense step skips imgs = Some (dims, margs, joint) /\
  length dims = length imgs /\ length margs = length imgs /\
  (forall k, Forall2 (fun i d => 0 <= i < d) k dims ->
     look_dense dims joint k = Some (occurrences (fun e => key_eqb k (bins step (mins skips imgs) imgs e)) (seq 0 n))) /\
  (forall i k, (i < length imgs)%nat -> 0 <= k < nth i dims 0 ->
     look_dense [nth i dims 0] (nth i margs []) [k] = Some (occurrences (fun e => k =? nth i (bins step (mins skips imgs) imgs e) 0) (seq 0 n))) /\
  (forall e, (e < n)%nat -> Forall2 (fun i d => 0 <= i < d) (bins step (mins skips imgs) imgs e) dims) /\
  Forall2 (fun d m => length m = Z.to_nat d) dims margs /\ length joint = Z.to_nat (volume dims).
Proof.
  intro H. unfold hist_dense. fold (ranges skips imgs). rewrite (dims_ok _ _ _ _ H). cbn [bind].
  destruct (columns_keys _ _ _ _ H) as [F K]. fold (mins skips imgs).
  set (dims := dims_of step skips imgs) in *.
  rewrite (fold_keys (add_dense dims) _ _ _ _ F). pose proof (dims_of_length _ _ _ _ H) as DL. fold dims in DL.
  destruct (dense_run dims _ K (map (fun d => zeros [d]) dims, zeros dims) []) as (st & E & (A & B & C)).
  { split; [| split; [| apply dense_zeros ]].
    - cbn [fst]. clear. induction dims as [|d dims IH]; cbn [map]; constructor; auto. unfold zeros. rewrite repeat_length. unfold volume. cbn. f_equal. lia.
    - intros i I. cbn [fst map]. rewrite nth_map_zeros by exact I. apply dense_zeros. }
  rewrite E. cbn [bind]. exists dims, (fst st), (snd st). split; [ reflexivity |]. split; [ exact DL |].
  split; [ rewrite <- DL; clear -A; induction A; cbn; lia |]. split; [| split; [| split; [| exact (conj A (proj1 C)) ]]].
  - intros k Q. destruct C as [_ C]. rewrite (C k Q). f_equal. cbn [app]. unfold keys_of. now rewrite occ_map.
  - intros i k I Q. specialize (B i). rewrite DL in B. destruct (B I) as [_ B']. rewrite B' by (repeat constructor; apply Q).
    f_equal. cbn [app]. unfold keys_of. rewrite !occ_map. apply occ_ext. intro e. apply key_eqb_single.
  - intros e L. rewrite Forall_forall in K. apply K. unfold keys_of. apply in_map. apply in_seq. lia.
Qed.

Lemma quantised_bin step mn v k : 1 <= step -> quantised step mn v = k <-> in_bin step mn k v.
Proof.
  intro S. unfold quantised, in_bin. split.
  - intros <-. pose proof (Z.div_mod (v - mn) step). pose proof (Z.mod_pos_bound (v - mn) step). nia.
  - intro B. symmetry. apply Z.div_unique with (v - mn - step * k); [ left; nia | lia ].
Qed.
Lemma agree step skips imgs n : inputs_ok step skips imgs n -> exists margs joint dims dmargs djoint,
  hist_sparse step skips imgs = Some (margs, joint) /\ hist_dense step skips imgs = Some (dims, dmargs, djoint) /\
  (forall k, Forall2 (fun i d => 0 <= i < d) k dims -> look_dense dims djoint k = Some (look joint k)) /\
  (forall i k, (i < length imgs)%nat -> 0 <= k < nth i dims 0 -> look_dense [nth i dims 0] (nth i dmargs []) [k] = Some (look (nth i margs []) [k])) /\
  (forall k, In k (map fst joint) -> Forall2 (fun i d => 0 <= i < d) k dims).
Proof.
  intro H. destruct (sparse_counts _ _ _ _ H) as (margs & joint & E & L & J & M & _ & _ & _ & ND & P).
  destruct (dense_counts _ _ _ _ H) as (dims & dmargs & djoint & E' & _ & _ & J' & M' & R & _).
  exists margs, joint, dims, dmargs, djoint. split; [ exact E |]. split; [ exact E' |]. split; [| split ].
  - intros k Q. now rewrite J', J.
  - intros i k I Q. now rewrite M', M.
  - intros k I. rewrite (sparse_is_tally _ _ _ _ H) in E. injection E as E. pose proof (f_equal snd E) as X. cbn [snd] in X.
    rewrite add_sparse_snd in X. cbn [snd] in X. rewrite <- X in I. apply tally_keys in I. destruct I as [[]|I].
    unfold keys_of in I. apply in_map_iff in I. destruct I as (e & <- & Ie). apply R. apply in_seq in Ie. lia.
Qed.
Lemma sparse_result step skips imgs n : inputs_ok step skips imgs n -> exists mns margs joint,
  length mns = length imgs /\
  (forall i s img, nth_error skips i = Some s -> nth_error imgs i = Some img -> exists mn, nth_error mns i = Some mn /\ lower_end s img mn) /\
  hist_sparse step skips imgs = Some (margs, joint) /\ length margs = length imgs /\
  (forall k, look joint k = occurrences (fun e => key_eqb k (bins step mns imgs e)) (seq 0 n)) /\
  (forall i k, (i < length imgs)%nat -> look (nth i margs []) [k] = occurrences (fun e => k =? nth i (bins step mns imgs e) 0) (seq 0 n)) /\
  (forall i k, (i < length imgs)%nat -> look (nth i margs []) [k] = zsum (map snd (filter (fun kc => nth i (fst kc) 0 =? k) joint))) /\
  zsum (map snd joint) = Z.of_nat n /\ (forall i, (i < length imgs)%nat -> zsum (map snd (nth i margs [])) = Z.of_nat n) /\
  NoDup (map fst joint) /\ Forall (fun kc => 0 < snd kc) joint.
Proof.
  intro H. destruct (lower_ends _ _ _ _ H) as [L B]. destruct (sparse_counts _ _ _ _ H) as (margs & joint & R).
  exists (mins skips imgs), margs, joint. exact (conj L (conj B R)).
Qed.
Lemma dense_result step skips imgs n : inputs_ok step skips imgs n -> exists mns dims margs joint,
  length mns = length imgs /\
  (forall i s img, nth_error skips i = Some s -> nth_error imgs i = Some img -> exists mn, nth_error mns i = Some mn /\ lower_end s img mn) /\
  hist_dense step skips imgs = Some (dims, margs, joint) /\
  length dims = length imgs /\ length margs = length imgs /\
  (forall k, Forall2 (fun i d => 0 <= i < d) k dims ->
     look_dense dims joint k = Some (occurrences (fun e => key_eqb k (bins step mns imgs e)) (seq 0 n))) /\
  (forall i k, (i < length imgs)%nat -> 0 <= k < nth i dims 0 ->
     look_dense [nth i dims 0] (nth i margs []) [k] = Some (occurrences (fun e => k =? nth i (bins step mns imgs e) 0) (seq 0 n))) /\
  (forall e, (e < n)%nat -> Forall2 (fun i d => 0 <= i < d) (bins step mns imgs e) dims).
Proof.
  intro H. destruct (lower_ends _ _ _ _ H) as [L B]. destruct (dense_counts _ _ _ _ H) as (dims & margs & joint & E & A & C & D & F & G & _).
  exists (mins skips imgs), dims, margs, joint. exact (conj L (conj B (conj E (conj A (conj C (conj D (conj F G))))))).
Qed.
Lemma joint_example : inputs_ok 10 [None; Some (0, 255)] [[7; 30; 8; 31]; [5; 250; 9; 100]] 4 /\
  hist_sparse 10 [None; Some (0, 255)] [[7; 30; 8; 31]; [5; 250; 9; 100]] =
    Some ([[([0], 2); ([2], 2)]; [([0], 2); ([25], 1); ([10], 1)]], [([0; 0], 2); ([2; 25], 1); ([2; 10], 1)]).
Proof.
  split; [| reflexivity ]. split; [ lia |]. split; [ discriminate |]. split; [ lia |]. split; [ repeat constructor |].
  constructor; [ cbn; intros v w A B; intuition lia |]. constructor; [| constructor ]. cbn. split; [| lia ].
  apply Forall_forall. cbn. intros v A. intuition lia.
Qed.
