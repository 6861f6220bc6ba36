(* The terms of a fusion move of Model.StereoMoves bound the change of the energy from above. *)
From Coq Require Import ZArith List Bool Lia Permutation.
From Verif Require Import Lib.Grid Model.FusionTerms Spec.FusionTerms Proofs.FusionTerms Model.StereoMoves Spec.StereoMoves Proofs.StereoMoves Proofs.StereoRun.
Import ListNotations.
Local Open Scope Z_scope.

(* sums *)
Lemma total_cons a l : total (a :: l) = a + total l. Proof. reflexivity. Qed.
Lemma total_le {A} (f g : A -> Z) l : (forall x, In x l -> f x <= g x) -> total (map f l) <= total (map g l).
Proof. induction l as [|a l IH]; intro H; cbn [map]; [ lia |]. rewrite !total_cons. specialize (IH (fun x I => H x (or_intror I))). specialize (H a (or_introl eq_refl)). lia. Qed.
Lemma total_minus {A} (f g : A -> Z) l : total (map (fun x => f x - g x) l) = total (map f l) - total (map g l).
Proof. induction l as [|a l IH]; cbn [map]; [ reflexivity |]. rewrite !total_cons. lia. Qed.
Lemma total_swap {A B} (f : A -> B -> Z) l m : total (map (fun a => total (map (f a) m)) l) = total (map (fun b => total (map (fun a => f a b) l)) m).
Proof. induction l as [|a l IH]; cbn [map]; [ symmetry; now apply total_zero |]. rewrite total_cons, IH, <- total_plus. apply total_map_ext. intros b _. reflexivity. Qed.
Lemma total_prod {A B} (f : A * B -> Z) l m : total (map f (list_prod l m)) = total (map (fun a => total (map (fun b => f (a, b)) m)) l).
Proof. induction l as [|a l IH]; cbn [list_prod map]; [ reflexivity |]. rewrite map_app, total_app, total_cons, IH, map_map. reflexivity. Qed.
Lemma total_filter {A} (p : A -> bool) f l : total (map f (filter p l)) = total (map (fun x => if p x then f x else 0) l).
Proof. induction l as [|a l IH]; cbn [filter map]; [ reflexivity |]. rewrite total_cons. destruct (p a); cbn [map]; [ rewrite total_cons |]; lia. Qed.
Lemma total_pick (g : Z -> Z) t l : NoDup l -> In t l -> total (map (fun c => if t =? c then g c else 0) l) = g t.
Proof.
  intros N I. induction N as [|a l Na N IH]; [ destruct I |]. cbn [map]. rewrite total_cons. destruct I as [->|I].
  - rewrite Z.eqb_refl. rewrite total_zero; [ lia |]. intros c Ic. destruct (t =? c) eqn:E; [| reflexivity ]. apply Z.eqb_eq in E. subst. contradiction.
  - rewrite IH by exact I. destruct (t =? a) eqn:E; [| lia ]. apply Z.eqb_eq in E. subst. contradiction.
Qed.
Lemma total_flat (f : Z -> Z) h w : 0 <= h -> 0 <= w -> total (map (fun r => total (map (fun x => f (r * w + x)) (zrange 0 w))) (zrange 0 h)) = total (map f (zrange 0 (h * w))).
Proof.
  intros Hh Hw. unfold zrange. rewrite <- (Z2Nat.id h) at 2 by lia. generalize (Z.to_nat h). clear h Hh. intro n. induction n as [|n IH]; [ reflexivity |].
  replace (S n) with (n + 1)%nat at 1 by lia. rewrite zseq_app, map_app, total_app, IH. change (zseq (0 + Z.of_nat n) 1) with [0 + Z.of_nat n + Z.of_nat 0]. cbn [map]. rewrite total_cons.
  replace (Z.to_nat (Z.of_nat (S n) * w)) with (Z.to_nat (Z.of_nat n * w) + Z.to_nat w)%nat by nia. rewrite zseq_app, map_app, total_app. rewrite Z2Nat.id by nia.
  replace (0 + Z.of_nat n * w) with (0 + (Z.of_nat n * w)) by lia. rewrite zseq_shift, map_map. change (total []) with 0. replace (0 + Z.of_nat n + Z.of_nat 0) with (Z.of_nat n) by lia. rewrite Z.add_0_r. f_equal. apply total_map_ext. intros x _. f_equal. lia.
Qed.
Lemma total_wider (f : Z -> Z) a n b m : 0 <= n -> b <= a -> a + n <= b + m -> (forall c, b <= c < b + m -> ~ a <= c < a + n -> f c = 0) -> total (map f (zrange a n)) = total (map f (zrange b m)).
Proof.
  intros Hn H1 H2 H. unfold zrange. replace (Z.to_nat m) with (Z.to_nat (a - b) + (Z.to_nat n + Z.to_nat (b + m - (a + n))))%nat by lia. rewrite !zseq_app, !map_app, !total_app.
  rewrite (total_zero f (zseq b _)); [| intros c I; apply in_zseq in I; apply H; lia ]. replace (b + Z.of_nat (Z.to_nat (a - b))) with a by lia.
  rewrite (total_zero f (zseq (a + _) _)); [ lia | intros c I; apply in_zseq in I; apply H; lia ].
Qed.
Lemma ofold_total {B} (f : B -> option Z) (g : B -> Z) l : (forall b, In b l -> f b = Some (g b)) -> forall e, ofold (fun e b => obind (f b) (fun v => Some (e + v))) l e = Some (e + total (map g l)).
Proof. intro H. induction l as [|b l IH]; intro e; cbn [ofold map]; [ f_equal; unfold total; cbn; lia |]. rewrite (H b (or_introl eq_refl)). cbn [obind]. rewrite (IH (fun b I => H b (or_intror I))). rewrite total_cons. f_equal. lia. Qed.
Lemma omap_some {A B} (f : A -> option B) (g : A -> B) l : (forall a, In a l -> f a = Some (g a)) -> omap f l = Some (map g l).
Proof. intro H. induction l as [|a l IH]; cbn [omap map]; [ reflexivity |]. rewrite (H a (or_introl eq_refl)). cbn [obind]. now rewrite (IH (fun a I => H a (or_intror I))). Qed.

(* tables *)
Lemma penalty_0 add : penalty add 0 = 0. Proof. reflexivity. Qed.
Lemma penalty_S add n : 0 <= n -> penalty add (n + 1) = penalty add n + add n.
Proof. intro H. unfold penalty, zrange. replace (Z.to_nat (n + 1)) with (Z.to_nat n + 1)%nat by lia. rewrite zseq_app, map_app, total_app. change (zseq (0 + Z.of_nat (Z.to_nat n)) 1) with [0 + Z.of_nat (Z.to_nat n) + Z.of_nat 0]. cbn [map]. rewrite total_cons. change (total []) with 0. replace (0 + Z.of_nat (Z.to_nat n) + Z.of_nat 0) with n by lia. lia. Qed.
Lemma sums_penalty add n : 0 <= n -> real_sum add n = penalty add n.
Proof.
  intro H. unfold real_sum. rewrite <- (Z2Nat.id n) at 2 by exact H. generalize (Z.to_nat n). clear n H. intro n. induction n as [|n IH]; [ reflexivity |]. cbn [sums]. rewrite IH, Nat2Z.inj_succ. unfold Z.succ. rewrite penalty_S by lia. reflexivity.
Qed.
Section Tables.
  Variables add rem : Z -> Z.
  Hypothesis F : fair_tables add rem.
  Lemma add_nonneg i : 0 <= i < 200 -> 0 <= add i.
  Proof. destruct F as (F0 & F1 & _). intro H. specialize (F1 0 i ltac:(lia) ltac:(lia)). lia. Qed.
  Lemma penalty_nonneg n : 0 <= n <= 200 -> 0 <= penalty add n.
  Proof. intro H. unfold penalty. apply total_nonneg. intros v I. apply in_map_iff in I. destruct I as (i & <- & I). apply in_zrange in I. apply add_nonneg. lia. Qed.
  Lemma penalty_last n : 0 <= n < 200 -> penalty add n <= n * add n.
  Proof.
    intro H. unfold penalty. assert (E : n * add n = total (map (fun _ => add n) (zrange 0 n))). { unfold zrange. rewrite <- (Z2Nat.id n) at 1 by lia. generalize 0, (add n). induction (Z.to_nat n) as [|k IH]; intros a v; [ reflexivity |]. rewrite zseq_S. cbn [map]. rewrite total_cons, <- IH. lia. }
    rewrite E. apply total_le. intros i I. apply in_zrange in I. apply F; lia.
  Qed.
  Lemma penalty_mean i m : 0 <= i <= m -> m <= 200 -> m * penalty add i <= i * penalty add m.
  Proof.
    intros H M. replace m with (i + Z.of_nat (Z.to_nat (m - i))) in * by lia. set (k := Z.to_nat (m - i)) in *. clearbody k. clear m. revert M. induction k as [|k IH]; intro M; [ replace (i + Z.of_nat 0) with i by lia; lia |].
    specialize (IH ltac:(lia) ltac:(lia)). replace (i + Z.of_nat (S k)) with (i + Z.of_nat k + 1) by lia. rewrite penalty_S by lia.
    assert (A : penalty add i <= i * add i) by (apply penalty_last; lia). assert (B : add i <= add (i + Z.of_nat k)) by (apply F; lia). assert (C : i * add i <= i * add (i + Z.of_nat k)) by (apply Z.mul_le_mono_nonneg_l; lia). lia.
  Qed.
  Lemma penalty_change m k a : 0 <= k <= m -> m < 200 -> 0 <= a <= 1 -> penalty add (m - k + a) - penalty add m <= k * rem m + a * add m.
  Proof.
    intros Hk Hm Ha. assert (K : penalty add (m - k) - penalty add m <= k * rem m).
    { destruct (Z.eq_dec m 0) as [->|N]; [ replace k with 0 by lia; cbn [Z.sub Z.opp Z.add]; lia |]. destruct F as (_ & _ & F2). specialize (F2 m ltac:(lia)). pose proof (penalty_mean (m - k) m ltac:(lia) ltac:(lia)). nia. }
    destruct (Z.eq_dec a 0) as [->|N]; [ replace (m - k + 0) with (m - k) by lia; lia |]. replace a with 1 in * by lia. rewrite penalty_S by lia. assert (add (m - k) <= add m) by (apply F; lia). lia.
  Qed.
End Tables.

Section Setup.
  Variable s : setup.
  Hypothesis S0 : sound s.
  Hypothesis T0 : nreal s <= 199.
  Hypothesis F0 : fair_tables (addt s) (remt s).
  Let N0 : 1 <= nreal s <= 253. Proof. apply S0. Qed.

  Lemma matched_table l row c : 0 <= matched s l row c < 200.
  Proof. pose proof (matched_bound s S0 l row c). lia. Qed.

  (* the value the code computes is the energy *)
  Lemma far_unmatched l row c : ~ (if second s then mind s else - maxd s) <= c < (if second s then cols s + maxd s else cols s - mind s) -> matched s l row c = 0.
  Proof.
    intro H. unfold matched, count. rewrite filter_none; [ reflexivity |]. intros x Ix. apply in_zrange in Ix. destruct (hits s l row c x) eqn:E; [| reflexivity ]. exfalso. apply (hits_real s S0) in E. destruct E as (_ & Hv & <-). rewrite maxd_is in H. unfold target in H. destruct (second s); lia.
  Qed.
  Lemma assoc_cost_is st : good s st -> total_assoc_cost s (asc st) = Some (uniqueness s (lab st)).
  Proof.
    intro G. unfold total_assoc_cost. set (first := if second s then mind s else - maxd s). set (last := if second s then cols s + maxd s else cols s - mind s).
    assert (R : 0 <= mind s <= maxd s /\ 0 < rows s /\ 0 < cols s) by (rewrite maxd_is; pose proof S0 as X; unfold sound in X; lia).
    assert (E : ofold (fun e rc => obind (get_count s (asc st) (fst rc) (snd rc)) (fun n => obind (lookup (real_sum (addt s)) n) (fun v => Some (e + v)))) (grid 0 (rows s) first (last - first)) 0 = Some (0 + total (map (fun rc => penalty (addt s) (matched s (lab st) (fst rc) (snd rc))) (grid 0 (rows s) first (last - first))))).
    { assert (X : forall l e, (forall rc, In rc l -> 0 <= fst rc < rows s /\ reachable_column s (snd rc)) -> ofold (fun e rc => obind (get_count s (asc st) (fst rc) (snd rc)) (fun n => obind (lookup (real_sum (addt s)) n) (fun v => Some (e + v)))) l e = Some (e + total (map (fun rc => penalty (addt s) (matched s (lab st) (fst rc) (snd rc))) l))).
      { induction l as [|rc l IH]; intros e H; cbn [ofold map]; [ f_equal; unfold total; cbn; lia |]. destruct (H rc (or_introl eq_refl)) as [H1 H2]. rewrite (good_counted s st G _ _ H1 H2). cbn [obind]. pose proof (matched_table (lab st) (fst rc) (snd rc)) as B. unfold lookup, table_size. replace ((0 <=? matched s (lab st) (fst rc) (snd rc)) && (matched s (lab st) (fst rc) (snd rc) <? 200)) with true by lia. cbn [ensure obind]. rewrite IH by (intros; apply H; now right). rewrite total_cons, sums_penalty by lia. f_equal. lia. }
      apply X. intros rc I. apply in_grid in I. split; [ lia |]. unfold reachable_column, first, last in *. destruct (second s); lia. }
    rewrite E. cbn [obind]. rewrite Z.add_0_l. assert (Q : total (map (fun rc => penalty (addt s) (matched s (lab st) (fst rc) (snd rc))) (grid 0 (rows s) first (last - first))) = uniqueness s (lab st)).
    { unfold uniqueness, grid. rewrite !total_prod. apply total_map_ext. intros r _. cbn [fst snd]. apply total_wider; try (unfold first, last; destruct (second s); lia). intros c Hc Hn. rewrite far_unmatched; [ reflexivity |]. fold first last. lia. }
    rewrite Q. assert (P : 0 <= uniqueness s (lab st)) by (unfold uniqueness; apply total_nonneg; intros v I; apply in_map_iff in I; destruct I as (rc & <- & _); apply (penalty_nonneg _ _ F0); pose proof (matched_table (lab st) (fst rc) (snd rc)); lia). apply Z.leb_le in P. rewrite P. reflexivity.
  Qed.
  Lemma model_value_is l : model_value s l = labels_cost s l.
  Proof.
    unfold model_value, labels_cost. change (graph s) with (pixels s).
    assert (C : forall cs e, fold_left (fun e c => e + cost c (map l (places c))) cs e = e + total (map (fun c => cost c (map l (places c))) cs)) by (induction cs as [|c cs IH]; intro e; cbn [fold_left map]; [ unfold total; cbn; lia | rewrite IH, total_cons; lia ]).
    assert (X : forall L e, fold_left (fun e i => fold_left (fun e c => e + cost c (map l (places c))) (cliques s i) (e + unary s i (l i))) L e = e + total (map (fun i => unary s i (l i) + total (map (fun c => cost c (map l (places c))) (cliques s i))) L)).
    { induction L as [|i L IH]; intro e; cbn [fold_left map]; [ unfold total; cbn; lia |]. rewrite IH, C, total_cons. lia. }
    rewrite X. lia.
  Qed.
  Lemma value_is st : good s st -> value s st = Some (energy s (lab st)).
  Proof. intro G. unfold value. rewrite assoc_cost_is by exact G. cbn [obind]. now rewrite model_value_is. Qed.

  (* what a pixel that leaves its label, or takes another, is charged *)
  Definition leave (l : Z -> Z) (i : Z) : Z := if (0 <=? l i) && (l i <? nreal s) then remt s (matched s l (row_of s i) (target s (col_of s i) (mind s + l i))) else 0.
  Definition join (l : Z -> Z) (alpha i : Z) : Z := if (0 <=? alpha) && (alpha <? nreal s) then addt s (matched s l (row_of s i) (target s (col_of s i) (mind s + alpha))) else 0.
  Lemma lookup_is t l row c : lookup t (matched s l row c) = Some (t (matched s l row c)).
  Proof. pose proof (matched_table l row c). unfold lookup, table_size. replace ((0 <=? matched s l row c) && (matched s l row c <? 200)) with true by lia. reflexivity. Qed.
  Lemma add_cost_is st i alpha : good s st -> In i (pixels s) -> 0 <= alpha -> add_cost s (asc st) (row_of s i) (col_of s i) alpha = Some (join (lab st) alpha i).
  Proof.
    intros G I Ha. destruct (pixel_of s S0 i I) as [(P1 & P2 & P3) Ei]. unfold add_cost, join, dontcare. replace ((0 <=? row_of s i) && (row_of s i <? rows s) && (0 <=? col_of s i) && (col_of s i <? cols s)) with true by lia. cbn [ensure]. replace (0 <=? alpha) with true by lia. cbn [andb]. destruct (alpha <? nreal s) eqn:E; [| reflexivity ].
    rewrite offset_col_is by lia. cbn [obind]. rewrite assoc_range_is by lia. cbn [ensure]. rewrite (good_counted s st G) by (try lia; apply column_reachable, target_column; auto; lia). cbn [obind]. apply lookup_is.
  Qed.
  Lemma remove_cost_is st i : good s st -> In i (pixels s) -> remove_cost s (asc st) (row_of s i) (col_of s i) (lab st i) = Some (leave (lab st) i).
  Proof.
    intros G I. destruct (pixel_of s S0 i I) as [(P1 & P2 & P3) Ei]. pose proof (proj2 G i I) as Hl. unfold remove_cost, leave, dontcare. replace ((0 <=? row_of s i) && (row_of s i <? rows s) && (0 <=? col_of s i) && (col_of s i <? cols s)) with true by lia. cbn [ensure]. replace (0 <=? lab st i) with true by lia. cbn [andb]. destruct (lab st i <? nreal s) eqn:E; [| reflexivity ].
    rewrite offset_col_is by lia. cbn [obind]. rewrite assoc_range_is by lia. cbn [ensure]. rewrite (good_counted s st G) by (try lia; apply column_reachable, target_column; auto; lia). cbn [obind].
    set (c := target s (col_of s i) (mind s + lab st i)). assert (H : 0 < matched s (lab st) (row_of s i) c).
    { unfold matched, count. assert (X : In (col_of s i) (filter (hits s (lab st) (row_of s i) c) (zrange 0 (cols s)))). { apply filter_In. split; [ apply in_zrange; lia |]. apply (hits_real s S0). rewrite Ei. repeat split; try assumption; try lia. unfold at_ in Ei. rewrite <- Ei at 1. exact P3. } destruct (filter _ _); [ destruct X | cbn [length]; lia ]. }
    apply Z.ltb_lt in H. rewrite H. cbn [ensure]. apply lookup_is.
  Qed.

  Definition unary_change (l : Z -> Z) (alpha i : Z) : Z := if l i =? alpha then 0 else leave l i + join l alpha i + unary s i alpha - unary s i (l i).
  Lemma unary_move_cost_is st i alpha : good s st -> In i (pixels s) -> 0 <= alpha < nlabels s -> unary_move_cost s (asc st) i (lab st i) alpha = Some (unary_change (lab st) alpha i).
  Proof.
    intros G I Ha. unfold unary_move_cost, unary_change. destruct (lab st i =? alpha); [ reflexivity |]. pose proof (proj2 G i I) as Hl. replace ((lab st i <? nlabels s) && (alpha <? nlabels s)) with true by lia. cbn [ensure]. rewrite remove_cost_is by assumption. cbn [obind]. rewrite add_cost_is by (try assumption; lia). reflexivity.
  Qed.

  (* the terms exist, and are worth the sum of the charges of the moved pixels and of the changes of the cliques *)
  Definition the_terms (l : Z -> Z) (alpha : Z) (ki : Z * Z) : list (Z * list Z) := (unary_change l alpha (snd ki), [fst ki]) :: flat_map (factor_terms alpha l) (cliques s (snd ki)).
  Lemma move_terms_is st alpha : good s st -> 0 <= alpha < nlabels s -> move_terms s st alpha = Some (concat (map (the_terms (lab st) alpha) (numbered s))).
  Proof.
    intros G Ha. unfold move_terms. fold (numbered s). rewrite (omap_some _ (the_terms (lab st) alpha)); [ reflexivity |]. intros [k i] I. cbn [fst snd]. rewrite unary_move_cost_is; [ reflexivity | exact G | now apply (numbered_pixel s (k, i)) | exact Ha ].
  Qed.
  Lemma terms_value_app x a b : terms_value x (a ++ b) = terms_value x a + terms_value x b.
  Proof. unfold terms_value. now rewrite map_app, total_app. Qed.
  Lemma terms_value_flat {A} x (f : A -> list (Z * list Z)) l : terms_value x (flat_map f l) = total (map (fun a => terms_value x (f a)) l).
  Proof. induction l as [|a l IH]; [ reflexivity |]. cbn [flat_map map]. rewrite terms_value_app, total_cons, IH. reflexivity. Qed.
  Definition clique_change (x : Z -> bool) (l : Z -> Z) (alpha : Z) (c : clique) : Z := cost c (relabelled x alpha l (nodes c) (places c)) - cost c (map l (places c)).
  Lemma named_length i c : In c (cliques s i) -> length (nodes c) = length (places c).
  Proof. intro I. destruct S0 as (_ & _ & _ & _ & H). specialize (H i c I). unfold named in H. induction H; cbn [length]; congruence. Qed.
  Lemma terms_value_is x l alpha : terms_value x (concat (map (the_terms l alpha) (numbered s))) =
    total (map (fun ki => (if x (fst ki) then unary_change l alpha (snd ki) else 0) + total (map (clique_change x l alpha) (cliques s (snd ki)))) (numbered s)).
  Proof.
    rewrite <- flat_map_concat_map, terms_value_flat. apply total_map_ext. intros [k i] _. unfold the_terms. cbn [fst snd]. change ((unary_change l alpha i, [k]) :: flat_map (factor_terms alpha l) (cliques s i)) with ([(unary_change l alpha i, [k])] ++ flat_map (factor_terms alpha l) (cliques s i)). rewrite terms_value_app, terms_value_flat. f_equal.
    - unfold terms_value. cbn [map]. rewrite total_cons. unfold term_value. cbn [snd fst forallb]. rewrite andb_true_r. change (total []) with 0. lia.
    - apply total_map_ext. intros c I. apply terms_are_the_change. now apply (named_length i).
  Qed.
  Lemma unchanged_terms l alpha : terms_value (fun _ => false) (concat (map (the_terms l alpha) (numbered s))) = 0.
  Proof.
    rewrite terms_value_is. apply total_zero. intros [k i] _. rewrite total_zero; [ reflexivity |]. intros c I. unfold clique_change. cbn [snd] in I. apply named_length in I. replace (relabelled (fun _ => false) alpha l (nodes c) (places c)) with (map l (places c)); [ lia |].
    revert I. generalize (places c). induction (nodes c) as [|n ns IH]; intros [|p ps] E; try discriminate E; [ reflexivity |]. cbn [map relabelled]. f_equal. apply IH. now injection E.
  Qed.

  (* labels after the move *)
  Section Move.
    Variables (l l' x : Z -> Z) (alpha : Z).
    Hypothesis L0 : labelled s l.
    Hypothesis A0 : 0 <= alpha < nlabels s.
    Hypothesis L' : forall j, l' j = if taken x (numbered s) j then alpha else l j.
    Lemma taken_at k p : 0 <= k -> nth_error (pixels s) (Z.to_nat k) = Some p -> taken x (numbered s) p = (x k =? 1).
    Proof.
      intros Hk E. apply eq_iff_eq_true. rewrite (taken_chosen s S0). unfold chosen. split.
      - intros (n & Hn & En & Ex). assert (Z.to_nat n = Z.to_nat k) by (apply (proj1 (NoDup_nth_error (pixels s)) (nodup_pixels s)); [ apply nth_error_Some; congruence | congruence ]). replace k with n by lia. lia.
      - intro X. exists k. repeat split; try assumption. lia.
    Qed.
    Lemma relabelled_is i c : In c (cliques s i) -> relabelled (fun n => x n =? 1) alpha l (nodes c) (places c) = map l' (places c).
    Proof.
      intro I. destruct S0 as (_ & _ & _ & _ & H). specialize (H i c I). unfold named in H. induction H as [|n p ns ps [Hn En] _ IH]; [ reflexivity |]. cbn [relabelled map]. rewrite IH, L', (taken_at n p Hn En). reflexivity.
    Qed.
    Definition gone (j : Z) : bool := taken x (numbered s) j && negb (l j =? alpha).
    Lemma gone_is j : l' j = if gone j then alpha else l j.
    Proof. rewrite L'. unfold gone. destruct (taken x (numbered s) j); [| reflexivity ]. destruct (l j =? alpha) eqn:E; [ cbn; lia | reflexivity ]. Qed.

    Definition leaving (row c y : Z) : bool := gone (at_ s row y) && hits s l row c y.
    Definition joining (row c y : Z) : bool := gone (at_ s row y) && hits s (fun _ => alpha) row c y.
    Lemma matched_moved row c : matched s l' row c = matched s l row c - count (leaving row c) (zrange 0 (cols s)) + count (joining row c) (zrange 0 (cols s)).
    Proof.
      unfold matched. rewrite !count_total, <- total_minus, <- total_plus. apply total_map_ext. intros y _. unfold leaving, joining.
      assert (H : hits s l' row c y = if gone (at_ s row y) then hits s (fun _ => alpha) row c y else hits s l row c y) by (unfold hits; fold (at_ s row y); rewrite !gone_is; destruct (gone (at_ s row y)); reflexivity).
      rewrite H. destruct (gone (at_ s row y)), (hits s l row c y), (hits s (fun _ => alpha) row c y); reflexivity.
    Qed.
    Lemma leaving_le row c : 0 <= count (leaving row c) (zrange 0 (cols s)) <= matched s l row c.
    Proof. split; [ apply count_nonneg |]. apply count_mono. intros y _ E. unfold leaving in E. apply andb_true_iff in E. apply E. Qed.
    Lemma joining_le row c : 0 <= count (joining row c) (zrange 0 (cols s)) <= 1.
    Proof.
      split; [ apply count_nonneg |]. unfold count. assert (N : NoDup (filter (joining row c) (zrange 0 (cols s)))) by apply NoDup_filter, nodup_zseq.
      assert (U : forall y z, In y (filter (joining row c) (zrange 0 (cols s))) -> In z (filter (joining row c) (zrange 0 (cols s))) -> y = z).
      { intros y z Y Z. apply filter_In in Y, Z. destruct Y as [_ Y], Z as [_ Z]. unfold joining in Y, Z. apply andb_true_iff in Y, Z. destruct Y as [_ Y], Z as [_ Z]. apply (hits_real s S0) in Y, Z. apply (target_inj_x s y z (mind s + alpha)). destruct Y as (_ & _ & ->), Z as (_ & _ & ->). reflexivity. }
      destruct (filter (joining row c) (zrange 0 (cols s))) as [|y [|z r]]; [ cbn; lia | cbn; lia |]. exfalso. apply NoDup_cons_iff in N. destruct N as [N _]. apply N. left. apply U; [ right; now left | now left ].
    Qed.
    Lemma penalties row c : penalty (addt s) (matched s l' row c) - penalty (addt s) (matched s l row c) <=
      total (map (fun y => (if leaving row c y then remt s (matched s l row c) else 0) + (if joining row c y then addt s (matched s l row c) else 0)) (zrange 0 (cols s))).
    Proof.
      rewrite matched_moved. pose proof (leaving_le row c). pose proof (joining_le row c). pose proof (matched_table l row c).
      assert (C : forall (p : Z -> bool) v, total (map (fun y => if p y then v else 0) (zrange 0 (cols s))) = count p (zrange 0 (cols s)) * v).
      { intros p v. rewrite count_total, Z.mul_comm, <- total_scale. apply total_map_ext. intros y _. destruct (p y); lia. }
      rewrite total_plus, !C. apply (penalty_change _ _ F0); lia.
    Qed.
    Definition charge (i : Z) : Z := if inside s i && gone i then leave l i + join l alpha i else 0.
    Lemma in_columns y v : 0 <= y < cols s -> 0 <= v < nreal s -> In (target s y (mind s + v)) (zrange (- maxd s) (cols s + 2 * maxd s)).
    Proof. intros Hy Hv. apply in_zrange. pose proof S0 as X. unfold sound in X. rewrite maxd_is. unfold target. destruct (second s); lia. Qed.
    Lemma column_charges row y : 0 <= row < rows s -> 0 <= y < cols s ->
      total (map (fun c => (if leaving row c y then remt s (matched s l row c) else 0) + (if joining row c y then addt s (matched s l row c) else 0)) (zrange (- maxd s) (cols s + 2 * maxd s))) = charge (at_ s row y).
    Proof.
      intros Hr Hy. assert (Rw : row_of s (at_ s row y) = row) by (unfold row_of, at_; rewrite Z.div_add_l by lia; rewrite Z.div_small by lia; lia). assert (Cl : col_of s (at_ s row y) = y) by (unfold col_of, at_; rewrite Z.add_comm, Z_mod_plus_full, Z.mod_small by lia; reflexivity).
      rewrite total_plus. unfold charge, leave, join. rewrite Rw, Cl.
      assert (H : forall v (g : Z -> Z), total (map (fun c => if (gone (at_ s row y)) && (inside s (at_ s row y) && (0 <=? v) && (v <? nreal s) && (target s y (mind s + v) =? c)) then g c else 0) (zrange (- maxd s) (cols s + 2 * maxd s))) = if inside s (at_ s row y) && gone (at_ s row y) then (if (0 <=? v) && (v <? nreal s) then g (target s y (mind s + v)) else 0) else 0).
      { intros v g. destruct (gone (at_ s row y)); [| rewrite andb_false_r; now apply total_zero ]. destruct (inside s (at_ s row y)); [| now apply total_zero ]. cbn [andb]. destruct ((0 <=? v) && (v <? nreal s)) eqn:E; [| now apply total_zero ]. cbn [andb]. apply total_pick; [ apply nodup_zseq | apply in_columns; lia ]. }
      unfold leaving, joining, hits. fold (at_ s row y).
      rewrite (H (l (at_ s row y)) (fun c => remt s (matched s l row c))), (H alpha (fun c => addt s (matched s l row c))). destruct (inside s (at_ s row y) && gone (at_ s row y)); reflexivity.
    Qed.
    Lemma uniqueness_change : uniqueness s l' - uniqueness s l <= total (map (fun i => if gone i then leave l i + join l alpha i else 0) (pixels s)).
    Proof.
      unfold uniqueness. rewrite <- total_minus. unfold grid. rewrite total_prod. cbn [fst snd].
      apply Z.le_trans with (total (map (fun r => total (map (fun y => charge (at_ s r y)) (zrange 0 (cols s)))) (zrange 0 (rows s)))).
      - apply total_le. intros r Ir. apply in_zrange in Ir.
        apply Z.le_trans with (total (map (fun c => total (map (fun y => (if leaving r c y then remt s (matched s l r c) else 0) + (if joining r c y then addt s (matched s l r c) else 0)) (zrange 0 (cols s)))) (zrange (- maxd s) (cols s + 2 * maxd s)))); [ apply total_le; intros c _; apply penalties |].
        rewrite total_swap. apply Z.eq_le_incl, total_map_ext. intros y Iy. apply in_zrange in Iy. apply column_charges; lia.
      - unfold at_. rewrite (total_flat charge) by (pose proof S0 as X; unfold sound in X; lia). unfold pixels. rewrite total_filter. apply Z.eq_le_incl, total_map_ext. intros i _. unfold charge. destruct (inside s i); [| reflexivity ]. cbn [andb]. destruct (gone i); reflexivity.
    Qed.
    Lemma energy_change : energy s l' - energy s l <= terms_value (fun n => x n =? 1) (concat (map (the_terms l alpha) (numbered s))).
    Proof.
      pose proof uniqueness_change as U. rewrite terms_value_is. unfold energy, labels_cost.
      replace (pixels s) with (map snd (numbered s)) in U |- * by apply (numbered_snd (pixels s)). rewrite !map_map in *.
      apply Z.le_trans with (total (map (fun ki => if gone (snd ki) then leave l (snd ki) + join l alpha (snd ki) else 0) (numbered s)) + (total (map (fun ki => unary s (snd ki) (l' (snd ki)) + total (map (fun c => cost c (map l' (places c))) (cliques s (snd ki)))) (numbered s)) - total (map (fun ki => unary s (snd ki) (l (snd ki)) + total (map (fun c => cost c (map l (places c))) (cliques s (snd ki)))) (numbered s)))); [ lia |].
      rewrite <- total_minus, <- total_plus. apply Z.eq_le_incl, total_map_ext. intros [k i] I. cbn [fst snd]. apply numbered_in in I. destruct I as [Hk E].
      assert (C : total (map (clique_change (fun n => x n =? 1) l alpha) (cliques s i)) = total (map (fun c => cost c (map l' (places c))) (cliques s i)) - total (map (fun c => cost c (map l (places c))) (cliques s i))).
      { rewrite <- total_minus. apply total_map_ext. intros c Ic. unfold clique_change. now rewrite (relabelled_is i c Ic). }
      rewrite C, gone_is. unfold gone, unary_change. rewrite (taken_at k i Hk E). destruct (x k =? 1); cbn [andb]; [| lia ]. destruct (l i =? alpha) eqn:El; cbn [negb]; [ apply Z.eqb_eq in El; rewrite El |]; lia.
    Qed.
  End Move.

  Lemma move_energy st alpha x : good s st -> 0 <= alpha < nlabels s -> not_worse s st alpha x ->
    exists st' ts, move_terms s st alpha = Some ts /\ move s st alpha x = Some st' /\ good s st' /\ value s st' = Some (energy s (lab st')) /\ energy s (lab st') <= energy s (lab st).
  Proof.
    intros G Ha W. destruct (move_ok s S0 st alpha x G Ha) as (st' & E & G' & L). exists st', (concat (map (the_terms (lab st) alpha) (numbered s))). pose proof (move_terms_is st alpha G Ha) as M. split; [ exact M |]. split; [ exact E |]. split; [ exact G' |]. split; [ now apply value_is |].
    pose proof (energy_change (lab st) (lab st') x alpha L) as C. specialize (W _ M). rewrite unchanged_terms in W. lia.
  Qed.
  Lemma infer_ok ms : forall st, good s st -> solved s st ms -> exists st', infer s ms (energy s (lab st)) st = Ran st' /\ good s st' /\ energy s (lab st') <= energy s (lab st).
  Proof.
    induction ms as [|[alpha x] ms IH]; intros st G H; cbn [infer].
    - exists st. split; [ reflexivity |]. split; [ exact G | lia ].
    - cbn [solved] in H. destruct H as (Ha & W & N). destruct (move_energy st alpha x G Ha W) as (st1 & ts & -> & E & G1 & V & D). rewrite E, V. apply Z.leb_le in D as D'. rewrite D'. destruct (IH st1 G1 (N st1 E)) as (st' & R & G' & D2). exists st'. split; [ exact R |]. split; [ exact G' | lia ].
  Qed.
End Setup.
