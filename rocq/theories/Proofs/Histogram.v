From Coq Require Import ZArith List Bool Lia Permutation.
From Verif Require Import Lib.Grid Model.Histogram Spec.Histogram.
Import ListNotations.
Open Scope Z_scope.

Lemma incr_length l v : length (incr l v) = length l.
Proof. revert v. induction l as [|c l IH]; intros [|v]; cbn; auto. Qed.
Lemma incr_nth l v k : (v < length l)%nat -> nth k (incr l v) 0 = nth k l 0 + (if Nat.eqb k v then 1 else 0).
Proof.
  revert v k. induction l as [|c l IH]; intros v k L; cbn [length] in L; [ lia |]. destruct v as [|v], k as [|k]; cbn [incr nth]; cbn [Nat.eqb]; try lia.
  apply IH. lia.
Qed.
Lemma nbins_val d : Z.of_nat (nbins d) = if d then 65536 else 256.
Proof. unfold nbins. destruct d; rewrite Z2Nat.id; lia. Qed.

Lemma fold_hist nb : forall px c, length c = nb -> (forall v, In v px -> 0 <= v < Z.of_nat nb) ->
  let r := fold_left (fun c v => incr c (Z.to_nat v)) px c in
  length r = nb /\ forall k, nth k r 0 = nth k c 0 + count (fun v => v =? Z.of_nat k) px.
Proof.
  induction px as [|v px IH]; intros c L B; cbn [fold_left]; cbv zeta.
  - split; auto. intro k. unfold count. cbn. lia.
  - assert (Bv : 0 <= v < Z.of_nat nb) by (apply B; now left).
    destruct (IH (incr c (Z.to_nat v))) as [L' N']; [ now rewrite incr_length | intros; apply B; now right |].
    cbv zeta in *. split; auto. intro k. rewrite N', incr_nth by lia. rewrite count_cons.
    destruct (Nat.eqb_spec k (Z.to_nat v)), (Z.eqb_spec v (Z.of_nat k)); lia.
Qed.
Lemma masked_fold : forall l c n,
  fold_left (fun st (p : Z * Z) => if snd p =? 0 then st else (incr (fst st) (Z.to_nat (fst p)), snd st + 1)) l (c, n) =
  (fold_left (fun c v => incr c (Z.to_nat v)) (map fst (filter (fun p => negb (snd p =? 0)) l)) c,
   n + Z.of_nat (length (map fst (filter (fun p => negb (snd p =? 0)) l)))).
Proof.
  induction l as [|[v m] l IH]; intros c n; cbn [fold_left filter map].
  - cbn. f_equal. lia.
  - cbn [snd fst]. destruct (m =? 0); cbn [negb]; rewrite IH; auto. cbn [map fold_left length fst]. f_equal. lia.
Qed.
Lemma hist_as_selected d px mask :
  hist_counts d px mask = (fold_left (fun c v => incr c (Z.to_nat v)) (selected px mask) (repeat 0 (nbins d)), Z.of_nat (length (selected px mask))).
Proof. destruct mask as [m|]; cbn [hist_counts selected]; auto. rewrite masked_fold. f_equal. Qed.
Lemma selected_in px mask v : In v (selected px mask) -> In v px.
Proof.
  destruct mask as [m|]; cbn [selected]; auto. intro I. apply in_map_iff in I. destruct I as ([a b] & E & I). apply filter_In in I.
  destruct I as [I _]. apply in_combine_l in I. cbn in E. congruence.
Qed.
Lemma nth_repeat0 n k : nth k (repeat 0 n) 0 = 0.
Proof. revert k. induction n as [|n IH]; intros [|k]; cbn; auto. Qed.

Theorem hist_exact d px mask : in_depth d px ->
  length (fst (hist_counts d px mask)) = nbins d /\
  snd (hist_counts d px mask) = Z.of_nat (length (selected px mask)) /\
  forall k, nth k (fst (hist_counts d px mask)) 0 = count (fun v => v =? Z.of_nat k) (selected px mask).
Proof.
  intro D. rewrite hist_as_selected. cbn [fst snd].
  destruct (fold_hist (nbins d) (selected px mask) (repeat 0 (nbins d))) as [L N].
  - apply repeat_length.
  - intros v I. rewrite nbins_val. apply D. eapply selected_in; eassumption.
  - cbv zeta in *. split; auto. split; auto. intro k. now rewrite N, nth_repeat0.
Qed.

(** ** the cumulative scan *)
Lemma count_le_S l b : count (fun w => w <=? b) l = count (fun w => w <? b) l + count (fun w => w =? b) l.
Proof.
  induction l as [|a l IH]; [ reflexivity |]. rewrite !count_cons, IH.
  destruct (Z.leb_spec a b), (Z.ltb_spec a b), (Z.eqb_spec a b); lia.
Qed.
Lemma count_lt_le l b : count (fun w => w <? b + 1) l = count (fun w => w <=? b) l.
Proof. apply count_ext_in. intros x _. destruct (Z.ltb_spec x (b + 1)), (Z.leb_spec x b); lia. Qed.
Lemma count_pos_in (p : Z -> bool) l : 0 < count p l -> exists v, In v l /\ p v = true.
Proof.
  unfold count. destruct (filter p l) as [|v r] eqn:E; cbn [length]; [ lia |]. intros _. exists v. apply filter_In. rewrite E. now left.
Qed.
Lemma med_loop_ok l half : forall rest b, 0 <= b -> (forall v, In v l -> 0 <= v < b + 1 + Z.of_nat (length rest)) ->
  (forall k, nth k rest 0 = count (fun w => w =? b + 1 + Z.of_nat k) l) ->
  count (fun w => w <? b) l <= half -> half < Z.of_nat (length l) ->
  exists v, med_loop rest (count (fun w => w <=? b) l) half b = Some v /\ rank_value l half v.
Proof.
  induction rest as [|c rest IH]; intros b B R N Lo Hi; cbn [med_loop].
  - destruct (Z.leb_spec (count (fun w => w <=? b) l) half) as [H|H].
    + exfalso. rewrite (count_ext_in _ (fun _ => true)) in H; [ rewrite count_true in H; lia |].
      intros v I. specialize (R v I). cbn [length] in R. apply Z.leb_le. lia.
    + exists b. split; auto. split; [| lia ].
      rewrite count_le_S in H. assert (P : 0 < count (fun w => w =? b) l) by lia. apply count_pos_in in P.
      destruct P as (v & I & E). apply Z.eqb_eq in E. congruence.
  - destruct (Z.leb_spec (count (fun w => w <=? b) l) half) as [H|H].
    + replace (count (fun w => w <=? b) l + c) with (count (fun w => w <=? b + 1) l).
      * apply IH; try lia.
        -- intros v I. specialize (R v I). cbn [length] in R. lia.
        -- intro k. specialize (N (S k)). cbn [nth] in N. rewrite N. apply count_ext_in. intros w _. f_equal. lia.
        -- rewrite count_lt_le. exact H.
      * rewrite (count_le_S l (b + 1)), count_lt_le. f_equal. specialize (N 0%nat). cbn [nth] in N. rewrite N. apply count_ext_in. intros w _. f_equal. lia.
    + exists b. split; auto. split; [| lia ].
      rewrite count_le_S in H. assert (P : 0 < count (fun w => w =? b) l) by lia. apply count_pos_in in P.
      destruct P as (v & I & E). apply Z.eqb_eq in E. congruence.
Qed.
Theorem median_rank d px mask : in_depth d px -> selected px mask <> [] ->
  exists v, calc_median d px mask = Some v /\ rank_value (selected px mask) (Z.of_nat (length (selected px mask)) / 2) v.
Proof.
  intros D NE. destruct (hist_exact d px mask D) as (L & T & N). unfold calc_median.
  destruct (hist_counts d px mask) as [counts n] eqn:E. cbn [fst snd] in *. subst n.
  assert (Ln : 0 < Z.of_nat (length (selected px mask))) by (destruct (selected px mask); [ congruence | cbn [length]; lia ]).
  rewrite Z.quot_div_nonneg by lia.
  destruct counts as [|c0 r]; [ pose proof (nbins_val d) as NB; rewrite <- L in NB; cbn in NB; destruct d; discriminate |].
  replace c0 with (count (fun w => w <=? 0) (selected px mask)).
  - apply med_loop_ok; try lia.
    + intros v I. apply selected_in in I. specialize (D v I). pose proof (nbins_val d) as NB. rewrite <- L in NB. cbn [length] in NB. destruct d; lia.
    + intro k. specialize (N (S k)). cbn [nth] in N. rewrite N. apply count_ext_in. intros w _. f_equal. lia.
    + replace (count (fun w => w <? 0) (selected px mask)) with 0; [ apply Z.div_pos; lia |].
      symmetry. unfold count. rewrite filter_none; auto. intros v I. apply selected_in in I. specialize (D v I). apply Z.ltb_ge. lia.
    + apply Z.div_lt; lia.
  - rewrite count_le_S. specialize (N 0%nat). cbn [nth Z.of_nat] in N. rewrite N.
    replace (count (fun w => w <? 0) (selected px mask)) with 0; [ lia |].
    symmetry. unfold count. rewrite filter_none; auto. intros v I. apply selected_in in I. specialize (D v I). apply Z.ltb_ge. lia.
Qed.
Lemma med_loop_zero : forall rest b, (forall k, nth k rest 0 = 0) -> med_loop rest 0 0 b = None.
Proof.
  induction rest as [|c r IH]; intros b N; cbn [med_loop Z.leb Z.compare]; auto.
  pose proof (N 0%nat) as E. cbn in E. subst c. apply IH. intro k. apply (N (S k)).
Qed.
Theorem median_empty d px mask : in_depth d px -> selected px mask = [] -> calc_median d px mask = None.
Proof.
  intros D NE. destruct (hist_exact d px mask D) as (L & T & N). rewrite NE in *. unfold calc_median.
  destruct (hist_counts d px mask) as [counts n]. cbn [fst snd] in *. subst n. cbn [length Z.of_nat].
  destruct counts as [|c0 r]; auto. pose proof (N 0%nat) as E. cbn in E. subst c0. apply med_loop_zero. intro k. apply (N (S k)).
Qed.

Theorem rank_unique l k v w : rank_value l k v -> rank_value l k w -> v = w.
Proof.
  assert (A : forall v w, rank_value l k v -> rank_value l k w -> v <= w).
  { clear. intros v w (_ & L1 & _) (_ & _ & U2). apply Z.nlt_ge. intro C.
    assert (count (fun a => a <=? w) l <= count (fun a => a <? v) l).
    { apply count_mono. intros x _ H. apply Z.leb_le in H. apply Z.ltb_lt. lia. }
    lia. }
  intros V W. apply Z.le_antisymm; now apply A.
Qed.

(** ** masked median blur *)
Lemma count_filter_len {A} (p : A -> bool) l : count p l = Z.of_nat (length (filter p l)).
Proof. reflexivity. Qed.
Lemma count_app_le {A} (p : A -> bool) (a b : list A) : (forall x, In x a -> p x = true) -> Z.of_nat (length a) <= count p (a ++ b).
Proof. intro H. rewrite count_app. rewrite (count_ext_in p (fun _ => true) a H), count_true. pose proof (count_nonneg p b). lia. Qed.
Lemma rank_of_nth l' k : (k < length l')%nat ->
  (forall i, (i < k)%nat -> nth i l' 0 <= nth k l' 0) -> (forall i, (k < i < length l')%nat -> nth k l' 0 <= nth i l' 0) ->
  rank_value l' (Z.of_nat k) (nth k l' 0).
Proof.
  intros K Lo Hi. split; [ now apply nth_In |].
  set (v := nth k l' 0) in *.
  destruct (nth_split l' 0 K) as (a & b & E & La). fold v in E.
  assert (A : forall x, In x a -> x <= v).
  { intros x I. apply (In_nth _ _ 0) in I. destruct I as (i & Li & Ei). rewrite <- Ei. replace (nth i a 0) with (nth i l' 0); [ apply Lo; lia |].
    rewrite E. apply app_nth1. exact Li. }
  assert (B : forall x, In x b -> v <= x).
  { intros x I. apply (In_nth _ _ 0) in I. destruct I as (i & Li & Ei). rewrite <- Ei. replace (nth i b 0) with (nth (S k + i) l' 0).
    - apply Hi. rewrite E, app_length. cbn [length]. lia.
    - rewrite E, app_nth2 by lia. replace (S k + i - length a)%nat with (S i) by lia. reflexivity. }
  clearbody v. rewrite E, !count_app, !count_cons. rewrite Z.ltb_irrefl, Z.leb_refl.
  assert (C1 : count (fun w => w <? v) b = 0) by (unfold count; rewrite filter_none; auto; intros x I; apply Z.ltb_ge; auto).
  assert (C2 : count (fun w => w <=? v) a = Z.of_nat (length a)) by (rewrite <- count_true; apply count_ext_in; intros x I; apply Z.leb_le; auto).
  pose proof (count_le (fun w => w <? v) a). pose proof (count_nonneg (fun w => w <=? v) b). lia.
Qed.
Lemma rank_perm l l' k v : Permutation l l' -> rank_value l k v -> rank_value l' k v.
Proof.
  intros P (I & R). split; [ eapply Permutation_in; eassumption |]. rewrite <- !(count_perm _ _ _ P). exact R.
Qed.
Lemma window_filter rows cols off y x q : 0 <= y < rows -> 0 <= x < cols -> 0 <= off ->
  filter q (window rows cols off y x) = filter (fun p => near off y x p && q p) (grid 0 rows 0 cols).
Proof.
  intros Y X O. unfold window.
  set (y0 := Z.max (y - off) 0). set (y1 := Z.min (y + off) (rows - 1)). set (x0 := Z.max (x - off) 0). set (x1 := Z.min (x + off) (cols - 1)).
  rewrite <- filter_filter. f_equal. unfold grid.
  rewrite <- (filter_zrange y0 (y1 - y0 + 1) rows) by lia. rewrite <- (filter_zrange x0 (x1 - x0 + 1) cols) by lia.
  rewrite <- filter_prod. apply filter_ext_in. intros [a b] I. apply in_prod_iff in I. rewrite !in_zrange in I. unfold near. cbn [fst snd].
  destruct (Z.leb_spec (Z.abs (a - y)) off), (Z.leb_spec (Z.abs (b - x)) off), (Z.leb_spec y0 a), (Z.ltb_spec a (y0 + (y1 - y0 + 1))),
    (Z.leb_spec x0 b), (Z.ltb_spec b (x0 + (x1 - x0 + 1))); cbn [andb]; lia.
Qed.
Theorem blur_vals_near f m rows cols off y x : 0 <= y < rows -> 0 <= x < cols -> 0 <= off ->
  blur_vals f m rows cols off y x = near_vals f m rows cols off y x.
Proof. intros. unfold blur_vals, near_vals. now rewrite window_filter. Qed.
Theorem blur_buffer_fits f m rows cols off y x : 0 <= y < rows -> 0 <= x < cols -> 0 <= off ->
  Z.of_nat (length (blur_vals f m rows cols off y x)) <= (2 * off + 1) * (2 * off + 1).
Proof.
  intros Y X O. unfold blur_vals. rewrite map_length.
  apply Z.le_trans with (Z.of_nat (length (window rows cols off y x))).
  - apply (count_le (fun p => negb (m (fst p) (snd p) =? 0))).
  - unfold window. rewrite grid_length by lia. apply Z.mul_le_mono_nonneg; lia.
Qed.
Theorem blur_rank nthel f m rows cols ksize def y x : nth_element_contract nthel -> 1 < ksize -> 0 <= y < rows -> 0 <= x < cols ->
  near_vals f m rows cols (ksize / 2) y x <> [] ->
  rank_value (near_vals f m rows cols (ksize / 2) y x) ((Z.of_nat (length (near_vals f m rows cols (ksize / 2) y x)) - 1) / 2)
    (median_blur nthel f m rows cols ksize def y x).
Proof.
  intros C K Y X NE. unfold median_blur. rewrite Z.quot_div_nonneg by lia.
  assert (O : 0 <= ksize / 2) by (apply Z.div_pos; lia).
  rewrite blur_vals_near by assumption. set (l := near_vals _ _ _ _ _ _ _) in *. clearbody l.
  assert (L : 0 < Z.of_nat (length l)) by (destruct l; [ congruence | cbn [length]; lia ]).
  rewrite (proj2 (Z.ltb_lt 0 (Z.of_nat (length l))) L). rewrite Z.quot_div_nonneg by lia.
  set (k := (Z.of_nat (length l) - 1) / 2).
  assert (Bk : 0 <= k < Z.of_nat (length l)) by (unfold k; split; [ apply Z.div_pos; lia | apply Z.div_lt_upper_bound; lia ]).
  destruct (C l (Z.to_nat k)) as (P & Lo & Hi); [ lia |].
  apply rank_perm with (nthel l (Z.to_nat k)); [ now apply Permutation_sym |].
  pose proof (Permutation_length P) as PL. assert (EK : k = Z.of_nat (Z.to_nat k)) by lia.
  replace (rank_value (nthel l (Z.to_nat k)) k) with (rank_value (nthel l (Z.to_nat k)) (Z.of_nat (Z.to_nat k))) by now rewrite <- EK.
  apply rank_of_nth; [ lia | exact Lo |]. intros i Hi'. apply Hi. lia.
Qed.
Theorem blur_default nthel f m rows cols ksize def y x : 1 < ksize -> 0 <= y < rows -> 0 <= x < cols ->
  near_vals f m rows cols (ksize / 2) y x = [] -> median_blur nthel f m rows cols ksize def y x = def.
Proof.
  intros K Y X NE. unfold median_blur. rewrite Z.quot_div_nonneg by lia.
  rewrite blur_vals_near by (try assumption; apply Z.div_pos; lia). rewrite NE. reflexivity.
Qed.
