(* The distances computed from vectors. *)
From Coq Require Import ZArith QArith Qabs Qminmax List Bool Permutation Sorted Lia Lqa Setoid Morphisms.
From Verif Require Import Lib.QSum Model.Emd Spec.Emd Proofs.Emd.
Import ListNotations.
Open Scope Q_scope.

(* ---- running sums ---- *)
Lemma partial_length l : forall acc, length (partial acc l) = length l.
Proof. induction l; intros; cbn; [ reflexivity | now rewrite IHl ]. Qed.
Lemma cumulative_length l : length (cumulativeSum l) = length l.
Proof. destruct l; cbn; [ reflexivity | now rewrite partial_length ]. Qed.
Lemma partial_nth l : forall acc k, (k < length l)%nat -> nth k (partial acc l) 0 == acc + below (at_ l) k.
Proof.
  induction l as [|x l IH]; intros acc k K; [ cbn in K; lia | ]. unfold below. rewrite sum_head. cbn [partial]. destruct k as [|k].
  - cbn. lra.
  - cbn [nth]. cbn in K. rewrite IH by lia. unfold below, at_. cbn [nth]. lra.
Qed.
Lemma cumulative_nth l k : (k < length l)%nat -> nth k (cumulativeSum l) 0 == below (at_ l) k.
Proof.
  destruct l as [|x l]; [ cbn; lia | ]. intros K. unfold below. rewrite sum_head. destruct k as [|k]; [ cbn; lra | ].
  cbn [cumulativeSum nth]. cbn in K. rewrite partial_nth by lia. unfold below, at_. cbn [nth]. lra.
Qed.
Lemma differences_length a : forall b acc, (length a <= length b)%nat -> length (differences acc a b) = length a.
Proof. induction a as [|x a IH]; intros [|y b] acc H; cbn in *; try lia. rewrite IH; lia. Qed.
Lemma differences_nth a : forall b acc k, (length a <= length b)%nat -> (k < length a)%nat ->
  nth k (differences acc a b) 0 == acc + (below (at_ a) k - below (at_ b) k).
Proof.
  induction a as [|x a IH]; intros b acc k L K; [ cbn in K; lia | ]. destruct b as [|y b]; [ cbn in L; lia | ].
  unfold below. rewrite !sum_head. cbn [differences]. destruct k as [|k]; [ cbn; lra | ].
  cbn [nth]. cbn in K, L. rewrite IH by lia. unfold below, at_. cbn [nth]. lra.
Qed.

Lemma lsum_map_sum {A} (g : A -> Q) l d n : length l = n -> lsum (map g l) == sum n (fun k => g (nth k l d)).
Proof. intros <-. rewrite lsum_sum, map_length. apply sum_ext. intros k K. rewrite (nth_indep _ 0 (g d)) by (rewrite map_length; exact K). rewrite map_nth. reflexivity. Qed.

Definition spread (n : nat) (a b : list Q) (c : Q) : Q := sum n (fun k => Qabs (below (at_ a) k - below (at_ b) k - c)).

Lemma line_value a b : (length a <= length b)%nat -> exists d, EMDL1dist a b = Some d /\ d == spread (length a) a b 0.
Proof.
  intros L. unfold EMDL1dist. destruct (Nat.ltb_spec (length b) (length a)); [ lia | ]. eexists. split; [ reflexivity | ].
  rewrite (fold_sum (fun xy => Qabs (fst xy - snd xy))).
  rewrite (lsum_map_sum _ _ (0, 0) (length a)) by (rewrite combine_length, !cumulative_length; lia).
  rewrite Qplus_0_l. apply sum_ext. intros k K.
  assert (F : forall (x y : list Q) j, (j < length x)%nat -> (j < length y)%nat -> nth j (combine x y) (0, 0) = (nth j x 0, nth j y 0)).
  { clear. induction x as [|u x IH]; intros [|v y] j J J'; cbn in *; try lia. destruct j; [ reflexivity | apply IH; lia ]. }
  rewrite F by (rewrite cumulative_length; lia). cbn [fst snd]. rewrite !cumulative_nth by lia. apply Qabs_wd. lra.
Qed.

(* ---- the median ---- *)
Lemma insert_perm x l : Permutation (x :: l) (insert x l).
Proof. induction l as [|y l IH]; cbn; [ reflexivity | ]. destruct (Qle_bool x y); [ reflexivity | ]. rewrite perm_swap. constructor. exact IH. Qed.
Lemma sort_perm l : Permutation l (sort l).
Proof. induction l as [|x l IH]; cbn; [ reflexivity | ]. rewrite IH at 1. apply insert_perm. Qed.
Lemma insert_sorted x l : StronglySorted Qle l -> StronglySorted Qle (insert x l).
Proof.
  induction 1 as [|y l S IH F]; cbn; [ repeat constructor | ]. destruct (Qle_bool x y) eqn:E.
  - apply Qle_bool_iff in E. constructor; [ constructor; assumption | ]. constructor; [ exact E | ]. eapply Forall_impl; [ | exact F ]. intros; lra.
  - constructor; [ exact IH | ]. assert (L : y < x) by (destruct (Qlt_le_dec y x) as [|C]; [ assumption | apply Qle_bool_iff in C; congruence ]).
    rewrite Forall_forall in *. intros z Z. apply (Permutation_in z (Permutation_sym (insert_perm x l))) in Z. destruct Z as [ <- | Z ]; [ lra | auto ].
Qed.
Lemma sort_sorted l : StronglySorted Qle (sort l).
Proof. induction l; cbn; [ constructor | apply insert_sorted, IHl ]. Qed.
Lemma sorted_nth l : StronglySorted Qle l -> forall i j, (i <= j)%nat -> (j < length l)%nat -> nth i l 0 <= nth j l 0.
Proof.
  induction 1 as [|y l S IH F]; intros i j I J; [ cbn in J; lia | ]. destruct i as [|i], j as [|j]; cbn [nth] in *; try lra; try lia.
  - rewrite Forall_forall in F. apply F, nth_In. cbn in J. lia.
  - apply IH; cbn in J; lia.
Qed.

Lemma median_least l c : StronglySorted Qle l -> (0 < length l)%nat ->
  let m := nth (length l / 2) l 0 in
  sum (length l) (fun k => Qabs (nth k l 0 - m)) <= sum (length l) (fun k => Qabs (nth k l 0 - c)).
Proof.
  intros Srt N m. set (h := (length l / 2)%nat). set (n := length l).
  assert (H : (h < n)%nat) by (apply Nat.div_lt; unfold n; lia).
  assert (H2 : (2 * h <= n < 2 * S h)%nat).
  { unfold h. fold n. assert (A := Nat.div_mod_eq n 2). assert (B := Nat.mod_upper_bound n 2). lia. }
  set (x := fun k => nth k l 0).
  assert (Lo : forall k, (k <= h)%nat -> x k <= m) by (intros; apply sorted_nth; auto).
  assert (Hi : forall k, (h <= k < n)%nat -> m <= x k) by (intros; apply sorted_nth; auto; lia).
  change (sum n (fun k => Qabs (x k - m)) <= sum n (fun k => Qabs (x k - c))).
  destruct (Qlt_le_dec c m) as [C|C].
  - (* the elements from the middle on gain *)
    set (e := m - c). assert (E : 0 <= e) by (unfold e; lra).
    assert (B : sum n (fun k => if Nat.ltb k h then - e else e) <= sum n (fun k => Qabs (x k - c) - Qabs (x k - m))).
    { apply sum_le. intros k K. cbv beta. destruct (Nat.ltb_spec k h) as [L|L].
      - assert (T := Qabs_triangle (x k - c) (c - m)). rewrite (Qabs_neg (c - m)) in T by lra.
        setoid_replace (x k - c + (c - m)) with (x k - m) in T by lra. unfold e. lra.
      - assert (X := Hi k ltac:(lia)). rewrite (Qabs_pos (x k - c)), (Qabs_pos (x k - m)) by lra. unfold e. lra. }
    rewrite sum_minus in B.
    assert (P : 0 <= sum n (fun k => if Nat.ltb k h then - e else e)).
    { replace n with (h + (n - h))%nat by lia. rewrite sum_split.
      rewrite (sum_ext h _ (fun _ => - e)) by (intros k K; destruct (Nat.ltb_spec k h); [ reflexivity | lia ]).
      rewrite (sum_ext (n - h) _ (fun _ => e)) by (intros k K; destruct (Nat.ltb_spec (h + k) h); [ lia | reflexivity ]).
      rewrite !sum_const. setoid_replace (inject_Z (Z.of_nat h) * - e + inject_Z (Z.of_nat (n - h)) * e) with ((inject_Z (Z.of_nat (n - h)) - inject_Z (Z.of_nat h)) * e) by lra.
      apply Qmult_le_0_compat; [ | exact E ]. assert (W : inject_Z (Z.of_nat h) <= inject_Z (Z.of_nat (n - h))) by (rewrite <- Zle_Qle; lia). lra. }
    lra.
  - set (e := c - m). assert (E : 0 <= e) by (unfold e; lra).
    assert (B : sum n (fun k => if Nat.ltb k (S h) then e else - e) <= sum n (fun k => Qabs (x k - c) - Qabs (x k - m))).
    { apply sum_le. intros k K. cbv beta. destruct (Nat.ltb_spec k (S h)) as [L|L].
      - assert (X := Lo k ltac:(lia)). rewrite (Qabs_neg (x k - c)), (Qabs_neg (x k - m)) by lra. unfold e. lra.
      - assert (T := Qabs_triangle (x k - c) (c - m)). rewrite (Qabs_pos (c - m)) in T by lra.
        setoid_replace (x k - c + (c - m)) with (x k - m) in T by lra. unfold e. lra. }
    rewrite sum_minus in B.
    assert (P : 0 <= sum n (fun k => if Nat.ltb k (S h) then e else - e)).
    { replace n with (S h + (n - S h))%nat by lia. rewrite sum_split.
      rewrite (sum_ext (S h) _ (fun _ => e)) by (intros k K; destruct (Nat.ltb_spec k (S h)); [ reflexivity | lia ]).
      rewrite (sum_ext (n - S h) _ (fun _ => - e)) by (intros k K; destruct (Nat.ltb_spec (S h + k) (S h)); [ lia | reflexivity ]).
      rewrite !sum_const.
      setoid_replace (inject_Z (Z.of_nat (S h)) * e + inject_Z (Z.of_nat (n - S h)) * - e)
        with ((inject_Z (Z.of_nat (S h)) - inject_Z (Z.of_nat (n - S h))) * e) by lra.
      apply Qmult_le_0_compat; [ | exact E ]. assert (W : inject_Z (Z.of_nat (n - S h)) <= inject_Z (Z.of_nat (S h))) by (rewrite <- Zle_Qle; lia). lra. }
    lra.
Qed.

(* the value is that of a middle edge, and least among all *)
Lemma circle_value a b : (length a <= length b)%nat -> (0 < length a)%nat ->
  exists d m, CEMDL1dist a b = Some d /\ (m < length a)%nat /\ d == spread (length a) a b (below (at_ a) m - below (at_ b) m) /\
    forall c, d <= spread (length a) a b c.
Proof.
  intros L N. unfold CEMDL1dist. destruct (Nat.ltb_spec (length b) (length a)); [ lia | ].
  set (D := differences 0 a b). assert (DL : length D = length a) by (apply differences_length, L).
  assert (SL : length (sort D) = length a) by (rewrite <- (Permutation_length (sort_perm D)); exact DL).
  assert (HH : (length a / 2 < length a)%nat) by (apply Nat.div_lt; lia).
  destruct (nth_error (sort D) (length a / 2)) as [med|] eqn:E; [ | apply nth_error_None in E; lia ].
  assert (EM : nth (length a / 2) (sort D) 0 = med) by (apply nth_error_nth; exact E).
  assert (I : In med D) by (apply (Permutation_in _ (Permutation_sym (sort_perm D))); eapply nth_error_In; exact E).
  destruct (In_nth _ _ 0 I) as (m & ML & MN).
  assert (V : forall c, fold_left (fun t x => t + Qabs (x - c)) (sort D) 0 == spread (length a) a b c).
  { intros c. rewrite (fold_sum (fun x => Qabs (x - c))), Qplus_0_l.
    rewrite (lsum_perm _ _ (Permutation_map _ (Permutation_sym (sort_perm D)))), (lsum_map_sum _ _ 0 (length a)) by exact DL.
    apply sum_ext. intros k K. unfold D. rewrite differences_nth by lia. apply Qabs_wd. lra. }
  eexists. exists m. split; [ reflexivity | ]. split; [ lia | ]. split.
  - rewrite V. apply sum_ext. intros k K. apply Qabs_wd. rewrite <- MN. unfold D. rewrite differences_nth by lia. lra.
  - intros c. rewrite <- (V c). rewrite (fold_sum (fun x => Qabs (x - c))), (fold_sum (fun x => Qabs (x - med))), !Qplus_0_l.
    rewrite !(lsum_map_sum _ _ 0 (length a)) by exact SL. rewrite <- EM. rewrite <- SL.
    apply median_least; [ apply sort_sorted | lia ].
Qed.

(* ---- the claims ---- *)
Lemma at_nonneg l : histogram l -> forall k, 0 <= at_ l k.
Proof. intros H k. unfold at_. destruct (Nat.lt_ge_cases k (length l)); [ eapply Forall_forall; [ exact H | apply nth_In; assumption ] | rewrite nth_overflow by assumption; lra ]. Qed.

Lemma least_wd n dist a b d d' : d == d' -> least_work n dist a b d -> least_work n dist a b d'.
Proof. intros E (A & f & P & W). split; [ intros g G; rewrite <- E; auto | exists f; split; [ exact P | now rewrite W ] ]. Qed.

Lemma line_claim a b : histogram a -> histogram b -> length a = length b -> lsum a == lsum b ->
  exists d, EMDL1dist a b = Some d /\ least_work (length a) line (at_ a) (at_ b) d.
Proof.
  intros A B L E. destruct (line_value a b) as (d & V & W); [ lia | ]. exists d. split; [ exact V | ].
  eapply least_wd; [ symmetry; exact W | ]. eapply least_wd; [ | apply line_least; try (intros; apply at_nonneg; assumption) ].
  - apply sum_ext. intros k K. apply Qabs_wd. lra.
  - rewrite !lsum_sum in E. rewrite L at 2. exact E.
Qed.
Lemma circle_claim a b : histogram a -> histogram b -> length a = length b -> lsum a == lsum b -> a <> [] ->
  exists d, CEMDL1dist a b = Some d /\ least_work (length a) (circle (length a)) (at_ a) (at_ b) d.
Proof.
  intros A B L E N. assert (0 < length a)%nat by (destruct a; [ congruence | cbn; lia ]).
  destruct (circle_value a b) as (d & m & V & M & W & Le); [ lia | assumption | ]. exists d. split; [ exact V | ].
  eapply least_wd; [ symmetry; exact W | ]. apply (circle_least (length a) m (at_ a) (at_ b)); try (intros; apply at_nonneg; assumption); try assumption.
  - rewrite !lsum_sum in E. rewrite L at 2. exact E.
  - intros c. fold (spread (length a) a b (below (at_ a) m - below (at_ b) m)). rewrite <- W. apply Le.
Qed.

Lemma below_eq n a b : length a = n -> length b = n -> (forall k, (k < n)%nat -> below (at_ a) k == below (at_ b) k) -> Forall2 Qeq a b.
Proof.
  intros LA LB H. assert (P : forall k, (k < n)%nat -> at_ a k == at_ b k).
  { intros [|k] K.
    - specialize (H 0%nat K). unfold below in H. cbn [sum] in H. lra.
    - assert (X := H (S k) K). assert (Y := H k ltac:(lia)). unfold below in *. cbn [sum] in *. lra. }
  clear H. revert b n LA LB P. induction a as [|x a IH]; intros [|y b] n LA LB P; cbn in LA, LB; try lia; constructor.
  - apply (P 0%nat). lia.
  - apply (IH b (pred n)); try lia. intros k K. apply (P (S k)). lia.
Qed.
Lemma below_same n a b : Forall2 Qeq a b -> below (at_ a) n == below (at_ b) n.
Proof.
  intros H. unfold below. apply sum_ext. intros k _. revert k. induction H; intros [|k]; unfold at_; cbn; try reflexivity; try assumption. apply IHForall2.
Qed.
Lemma sum_zero_each n f : (forall k, (k < n)%nat -> 0 <= f k) -> sum n f == 0 -> forall k, (k < n)%nat -> f k == 0.
Proof.
  induction n as [|n IH]; intros P E k K; [ lia | ]. cbn [sum] in E.
  assert (A : 0 <= sum n f) by (apply sum_nonneg; intros; apply P; lia). assert (B := P n ltac:(lia)).
  destruct (Nat.eq_dec k n) as [ -> | ]; [ lra | ]. apply IH; [ intros; apply P; lia | lra | lia ].
Qed.
Lemma Qabs_zero x : Qabs x == 0 -> x == 0.
Proof. intros H. assert (A := Qle_Qabs x). assert (B := Qle_Qabs (- x)). rewrite Qabs_opp in B. lra. Qed.

Lemma spread_nonneg n a b c : 0 <= spread n a b c.
Proof. apply sum_nonneg. intros. apply Qabs_nonneg. Qed.
Lemma spread_sym n a b c : spread n a b c == spread n b a (- c).
Proof. apply sum_ext. intros k K. rewrite <- Qabs_opp. apply Qabs_wd. lra. Qed.
Lemma spread_triangle n a b c x y : spread n a c (x + y) <= spread n a b x + spread n b c y.
Proof.
  unfold spread. rewrite <- sum_plus. apply sum_le. intros k K. eapply Qle_trans; [ | apply Qabs_triangle ].
  apply Qle_lteq. right. apply Qabs_wd. lra.
Qed.
#[export] Instance spread_comp n a b : Proper (Qeq ==> Qeq) (spread n a b).
Proof. intros x y E. apply sum_ext. intros. apply Qabs_wd. lra. Qed.

Lemma line_metric n : metric_on (fun l => length l = n) EMDL1dist.
Proof.
  intros a b c A B C.
  destruct (line_value a b) as (ab & V1 & W1); [ lia | ]. destruct (line_value b a) as (ba & V2 & W2); [ lia | ].
  destruct (line_value b c) as (bc & V3 & W3); [ lia | ]. destruct (line_value a c) as (ac & V4 & W4); [ lia | ].
  rewrite A in W1, W4. rewrite B in W2, W3.
  exists ab, ba, bc, ac. repeat (split; [ assumption | ]). split; [ rewrite W1; apply spread_nonneg | ]. split; [ | split ].
  - rewrite W1, W2, spread_sym. reflexivity.
  - rewrite W1, W3, W4. rewrite <- (Qplus_0_l 0) at 1. apply spread_triangle.
  - split.
    + intros E. apply (below_eq n); try assumption. intros k K. rewrite W1 in E.
      assert (X := sum_zero_each _ _ (fun k _ => Qabs_nonneg _) E k K). apply Qabs_zero in X. lra.
    + intros E. rewrite W1. apply sum_zero. intros k K. rewrite (below_same k a b E). setoid_replace (below (at_ b) k - below (at_ b) k - 0) with 0 by lra. reflexivity.
Qed.

Lemma total_below n l : length l = S n -> below (at_ l) n == lsum l.
Proof. intros H. rewrite lsum_sum, H. reflexivity. Qed.

Lemma circle_metric n t : (0 < n)%nat -> metric_on (fun l => length l = n /\ lsum l == t) CEMDL1dist.
Proof.
  intros N a b c (A & TA) (B & TB) (C & TC).
  destruct (circle_value a b) as (ab & m1 & V1 & M1 & W1 & L1); [ lia | lia | ]. destruct (circle_value b a) as (ba & m2 & V2 & M2 & W2 & L2); [ lia | lia | ].
  destruct (circle_value b c) as (bc & m3 & V3 & M3 & W3 & L3); [ lia | lia | ]. destruct (circle_value a c) as (ac & m4 & V4 & M4 & W4 & L4); [ lia | lia | ].
  rewrite A in *. rewrite B in *.
  exists ab, ba, bc, ac. repeat (split; [ assumption | ]). split; [ rewrite W1; apply spread_nonneg | ]. split; [ | split ].
  - apply Qle_antisym.
    + rewrite W2, spread_sym. apply L1.
    + rewrite W1, spread_sym. apply L2.
  - rewrite W1, W3. eapply Qle_trans; [ apply L4 | apply spread_triangle ].
  - split.
    + intros E. rewrite W1 in E. assert (X := sum_zero_each _ _ (fun k _ => Qabs_nonneg _) E).
      assert (Y : forall k, (k < n)%nat -> below (at_ a) k - below (at_ b) k == below (at_ a) m1 - below (at_ b) m1).
      { intros k K. specialize (X k K). apply Qabs_zero in X. lra. }
      destruct n as [|n]; [ lia | ]. assert (Z := Y n ltac:(lia)). rewrite !total_below in Z by assumption.
      apply (below_eq (S n)); try assumption. intros k K. specialize (Y k K). lra.
    + intros E. apply Qle_antisym; [ | rewrite W1; apply spread_nonneg ]. eapply Qle_trans; [ apply (L1 0) | ].
      apply Qle_lteq. right. apply sum_zero. intros k K. rewrite (below_same k a b E). setoid_replace (below (at_ b) k - below (at_ b) k - 0) with 0 by lra. reflexivity.
Qed.

Lemma circle_shorter a b : length a = length b -> a <> [] -> exists d e, CEMDL1dist a b = Some d /\ EMDL1dist a b = Some e /\ d <= e.
Proof.
  intros L N. assert (0 < length a)%nat by (destruct a; [ congruence | cbn; lia ]).
  destruct (circle_value a b) as (d & m & V & _ & _ & Le); [ lia | lia | ]. destruct (line_value a b) as (e & V' & W); [ lia | ].
  exists d, e. split; [ exact V | ]. split; [ exact V' | ]. rewrite W. apply Le.
Qed.

(* renumbering *)
Lemma renumber_length r l : length (renumber r l) = length l.
Proof. unfold renumber. rewrite app_length, Nat.add_comm, <- app_length, firstn_skipn. reflexivity. Qed.
Lemma renumber_at r l k : (r <= length l)%nat -> (k < length l)%nat -> at_ (renumber r l) k = at_ l (turn (length l) r k).
Proof.
  intros R K. unfold at_, renumber, turn. destruct (Nat.ltb_spec k (length l - r)) as [L|L].
  - rewrite app_nth1 by (rewrite skipn_length; exact L). rewrite <- (firstn_skipn r l) at 2. rewrite app_nth2; rewrite firstn_length; [ | lia ]. f_equal. lia.
  - rewrite app_nth2 by (rewrite skipn_length; exact L). rewrite skipn_length. symmetry. rewrite <- (firstn_skipn r l) at 2.
    rewrite app_nth1 by (rewrite firstn_length; lia). reflexivity.
Qed.
Lemma renumber_spread m a b c : length a = length b -> lsum a == lsum b -> (m < length a)%nat ->
  spread (length a) (renumber (S m) a) (renumber (S m) b) c == spread (length a) a b (c + (below (at_ a) m - below (at_ b) m)).
Proof.
  intros L T M. set (n := length a). assert (R : (S m <= n)%nat) by (unfold n; lia).
  unfold spread. rewrite <- (turn_sum n (S m) (fun k => Qabs (below (at_ a) k - below (at_ b) k - (c + (below (at_ a) m - below (at_ b) m))))) by exact R.
  apply sum_ext. intros k K. apply Qabs_wd.
  assert (BA : below (at_ (renumber (S m) a)) k == below (fun i => at_ a (turn n (S m) i)) k).
  { apply sum_ext. intros i I. rewrite renumber_at by (fold n; lia). reflexivity. }
  assert (BB : below (at_ (renumber (S m) b)) k == below (fun i => at_ b (turn n (S m) i)) k).
  { apply sum_ext. intros i I. rewrite renumber_at by (rewrite <- L; fold n; lia). rewrite <- L. reflexivity. }
  rewrite BA, BB, !below_turn by lia.
  assert (S1 : sum n (at_ a) == sum n (at_ b)) by (rewrite !lsum_sum in T; unfold n; rewrite L at 2; exact T).
  destruct (Nat.ltb k (n - S m)); [ lra | rewrite S1; lra ].
Qed.
Lemma circle_renumber r a b : length a = length b -> lsum a == lsum b -> a <> [] -> (r <= length a)%nat ->
  exists d e, CEMDL1dist a b = Some d /\ CEMDL1dist (renumber r a) (renumber r b) = Some e /\ d == e.
Proof.
  intros L T N R. assert (P : (0 < length a)%nat) by (destruct a; [ congruence | cbn; lia ]).
  destruct (circle_value a b) as (d & m1 & V1 & M1 & W1 & L1); [ lia | lia | ].
  destruct (circle_value (renumber r a) (renumber r b)) as (e & m2 & V2 & M2 & W2 & L2); [ rewrite !renumber_length; lia | rewrite renumber_length; lia | ].
  exists d, e. split; [ exact V1 | ]. split; [ exact V2 | ]. rewrite renumber_length in W2, L2.
  destruct r as [|m].
  - unfold renumber in *. cbn [skipn firstn] in *. rewrite !app_nil_r in *. congruence || (rewrite V1 in V2; injection V2 as ->; reflexivity).
  - assert (M : (m < length a)%nat) by lia. apply Qle_antisym.
    + rewrite W2, renumber_spread by assumption. apply L1.
    + rewrite W1. set (s := below (at_ a) m - below (at_ b) m). set (c := below (at_ a) m1 - below (at_ b) m1).
      eapply Qle_trans; [ apply (L2 (c - s)) | ]. rewrite renumber_spread by assumption. fold s.
      apply Qle_lteq. right. apply spread_comp. lra.
Qed.

(* the farthest *)
Lemma product_plan n a b : (forall k, (k < n)%nat -> 0 <= a k) -> (forall k, (k < n)%nat -> 0 <= b k) -> sum n a == 1 -> sum n b == 1 ->
  plan n a b (fun i j => a i * b j).
Proof.
  intros A B SA SB. split; [ | split ].
  - intros i j I J. apply Qmult_le_0_compat; auto.
  - intros i I. rewrite sum_scal, SB. lra.
  - intros j J. rewrite sum_scal_r, SA. lra.
Qed.
Lemma least_bound n dist a b d M : (forall k, (k < n)%nat -> 0 <= a k) -> (forall k, (k < n)%nat -> 0 <= b k) -> sum n a == 1 -> sum n b == 1 ->
  (forall i j, (i < n)%nat -> (j < n)%nat -> (dist i j <= M)%Z) -> least_work n dist a b d -> d <= inject_Z M.
Proof.
  intros A B SA SB D (L & _). eapply Qle_trans; [ apply L, (product_plan n a b); auto | ]. unfold work.
  apply Qle_trans with (sum n (fun i => sum n (fun j => a i * b j * inject_Z M))).
  - apply sum_le. intros i I. apply sum_le. intros j J. setoid_rewrite (Qmult_comm (a i * b j)). apply Qmult_le_compat_r.
    + rewrite <- Zle_Qle. auto.
    + apply Qmult_le_0_compat; auto.
  - rewrite (sum_ext n _ (fun i => a i * inject_Z M)).
    + rewrite sum_scal_r, SA. lra.
    + intros i I. rewrite sum_scal_r, sum_scal, SB. lra.
Qed.
Lemma bounds a b : histogram a -> histogram b -> length a = length b -> lsum a == 1 -> lsum b == 1 ->
  exists d e, EMDL1dist a b = Some d /\ CEMDL1dist a b = Some e /\
    d <= inject_Z (Z.of_nat (length a) - 1) /\ e <= inject_Z (Z.of_nat (length a) / 2).
Proof.
  intros A B L SA SB. assert (N : a <> []) by (intros ->; cbn in SA; lra).
  assert (E : lsum a == lsum b) by lra.
  destruct (line_claim a b A B L E) as (d & V & W). destruct (circle_claim a b A B L E N) as (e & V' & W').
  assert (SA' : sum (length a) (at_ a) == 1) by (rewrite lsum_sum in SA; exact SA).
  assert (SB' : sum (length a) (at_ b) == 1) by (rewrite L; rewrite lsum_sum in SB; exact SB).
  exists d, e. split; [ exact V | ]. split; [ exact V' | ]. split.
  - apply (least_bound (length a) line (at_ a) (at_ b)); try assumption; try (intros; apply at_nonneg; assumption). unfold line. lia.
  - apply (least_bound (length a) (circle (length a)) (at_ a) (at_ b)); try assumption; try (intros; apply at_nonneg; assumption).
    unfold circle, line. intros i j I J. apply Z.div_le_lower_bound; lia.
Qed.

Lemma faults a b : (EMDL1dist a b = None <-> (length b < length a)%nat) /\ (CEMDL1dist a b = None <-> (length b < length a)%nat \/ a = []).
Proof.
  split.
  - unfold EMDL1dist. destruct (Nat.ltb_spec (length b) (length a)); split; try reflexivity; try discriminate; try lia.
  - split.
    + intros H. destruct (Nat.lt_ge_cases (length b) (length a)); [ left; assumption | ]. right. destruct a as [|x a]; [ reflexivity | ].
      destruct (circle_value (x :: a) b) as (d & m & V & _); [ assumption | cbn; lia | ]. congruence.
    + intros [H| -> ].
      * unfold CEMDL1dist. destruct (Nat.ltb_spec (length b) (length a)); [ reflexivity | lia ].
      * unfold CEMDL1dist. cbn. destruct (length b); reflexivity.
Qed.
