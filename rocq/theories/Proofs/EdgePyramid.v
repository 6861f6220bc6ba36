From Coq Require Import ZArith List Bool Lia.
From Verif Require Import Lib.Grid Model.EdgeDetector Spec.EdgeDetector.
Import ListNotations.
Open Scope Z_scope.

Lemma u64_small v : 0 <= v < 18446744073709551616 -> u64 v = v.
Proof. intro B. unfold u64. now apply Z.mod_small. Qed.
Lemma from_to_in i b x : In x (from_to i b) <-> i <= x < b.
Proof. unfold from_to. rewrite in_zrange. lia. Qed.
Lemma zrange_cut a n m : 0 <= n -> 0 <= m -> zrange a (n + m) = zrange a n ++ zrange (a + n) m.
Proof. intros N M. unfold zrange. rewrite Z2Nat.inj_add by lia. rewrite zseq_app. now rewrite Z2Nat.id by lia. Qed.
(** the three loops *)
Lemma thirds n : 2 <= n -> from_to 0 2 ++ from_to 2 (n - 2) ++ from_to (past 2 (n - 2)) n = zrange 0 n.
Proof.
  intro B. unfold from_to, past. destruct (Z_le_dec (n - 2) 2) as [L|L].
  - replace (zrange 2 (n - 2 - 2)) with (@nil Z) by (unfold zrange; replace (Z.to_nat (n - 2 - 2)) with 0%nat by lia; reflexivity). cbn [app].
    rewrite Z.max_l by lia. replace (zrange 0 n) with (zrange 0 ((2 - 0) + (n - 2))) by (f_equal; lia). rewrite zrange_cut by lia. reflexivity.
  - rewrite Z.max_r by lia. replace (zrange 0 n) with (zrange 0 ((2 - 0) + ((n - 2 - 2) + (n - (n - 2))))) by (f_equal; lia). rewrite zrange_cut by lia. f_equal. rewrite (zrange_cut (0 + (2 - 0))) by lia. f_equal. f_equal. lia.
Qed.
Lemma map_fst_row rows cols r : 2 <= cols < 18446744073709551616 -> map fst (visit_row rows cols r) = map (fun c => (r, c)) (zrange 0 cols).
Proof.
  intro B. unfold visit_row. rewrite u64_small by lia. rewrite <- (thirds cols) by lia. rewrite !map_app, !map_map. reflexivity.
Qed.
Lemma map_fst_border cols r : 0 <= cols -> map fst (border_row cols r) = map (fun c => (r, c)) (zrange 0 cols).
Proof. intro B. unfold border_row, from_to. rewrite map_map. now rewrite Z.sub_0_r. Qed.
Lemma map_flat_map {A B C} (f : B -> C) (g : A -> list B) l : map f (flat_map g l) = flat_map (fun x => map f (g x)) l.
Proof. induction l; cbn; auto. now rewrite map_app, IHl. Qed.
Lemma flat_map_ext_in {A B} (f g : A -> list B) l : (forall x, In x l -> f x = g x) -> flat_map f l = flat_map g l.
Proof. induction l as [|a l IH]; intro E; cbn; auto. rewrite (E a) by now left. f_equal. apply IH. intros x I. apply E. now right. Qed.
Lemma flat_map_grid (ys xs : list Z) : flat_map (fun y => map (fun x => (y, x)) xs) ys = list_prod ys xs.
Proof. induction ys; cbn; auto. now rewrite IHys. Qed.
Definition fits (rows cols : Z) : Prop := 2 <= rows /\ (2 <= cols \/ rows <= 4).
Definition sizes (rows cols : Z) : Prop := 1 <= rows <= 2147483647 /\ 1 <= cols <= 2147483647.
Lemma visits_grid rows cols : sizes rows cols -> fits rows cols -> map fst (visits rows cols) = grid 0 rows 0 cols.
Proof.
  intros [R C] [F1 F2]. unfold visits, grid. rewrite u64_small by lia. rewrite !map_app, !map_flat_map.
  rewrite (flat_map_ext_in (fun x => map fst (visit_row rows cols x)) (fun x => map (fun c => (x, c)) (zrange 0 cols))).
  2:{ intros x I. apply from_to_in in I. apply map_fst_row. lia. }
  rewrite !(flat_map_ext_in (fun x => map fst (border_row cols x)) (fun x => map (fun c => (x, c)) (zrange 0 cols))) by (intros; apply map_fst_border; lia).
  rewrite <- !flat_map_app, thirds by lia. apply flat_map_grid.
Qed.
Lemma visits_flag rows cols r c b : sizes rows cols -> fits rows cols -> In (r, c, b) (visits rows cols) ->
  (b = true <-> (2 <= r < rows - 2 /\ 2 <= c < cols - 2)).
Proof.
  intros [R C] [F1 F2] I. unfold visits in I. rewrite u64_small in I by lia. apply in_app_iff in I. destruct I as [I|I]; [| apply in_app_iff in I; destruct I as [I|I] ].
  - apply in_flat_map in I. destruct I as (y & Iy & I). apply from_to_in in Iy. unfold border_row in I. apply in_map_iff in I. destruct I as (x & E & Ix).
    assert (y = r) by congruence. assert (b = false) by congruence. subst. split; [ discriminate | lia ].
  - apply in_flat_map in I. destruct I as (y & Iy & I). apply from_to_in in Iy. unfold visit_row in I. rewrite u64_small in I by lia.
    apply in_app_iff in I. destruct I as [I|I]; [| apply in_app_iff in I; destruct I as [I|I] ]; apply in_map_iff in I; destruct I as (x & E & Ix);
      apply from_to_in in Ix; assert (y = r) by congruence; assert (x = c) by congruence.
    + assert (b = false) by congruence. subst. split; [ discriminate | lia ].
    + assert (b = true) by congruence. subst. split; [ lia | auto ].
    + assert (b = false) by congruence. subst. unfold past in Ix. split; [ discriminate | lia ].
  - apply in_flat_map in I. destruct I as (y & Iy & I). apply from_to_in in Iy. unfold border_row in I. apply in_map_iff in I. destruct I as (x & E & Ix).
    assert (y = r) by congruence. assert (b = false) by congruence. subst. unfold past in Iy. split; [ discriminate | lia ].
Qed.
(** when no access leaves the lookup map *)
Theorem visits_safe rows cols : sizes rows cols -> ((forall v, In v (visits rows cols) -> in_lookup rows cols v) <-> fits rows cols).
Proof.
  intro S. split.
  - intro A. destruct S as [R C]. unfold fits.
    assert (F1 : 2 <= rows).
    { destruct (Z_le_dec 2 rows); auto. assert (In (1, 0, false) (visits rows cols)) as I.
      { unfold visits. apply in_app_iff. left. apply in_flat_map. exists 1. split; [ apply from_to_in; lia |]. unfold border_row. apply in_map_iff. exists 0. split; auto. apply from_to_in. lia. }
      apply A in I. unfold in_lookup in I. nia. }
    split; auto. destruct (Z_le_dec 2 cols) as [|N]; auto. destruct (Z_le_dec rows 4) as [|N']; auto.
    assert (cols = 1) by lia. subst cols. assert (In (2, rows, true) (visits rows 1)) as I.
    { unfold visits. apply in_app_iff. right. apply in_app_iff. left. rewrite u64_small by lia. apply in_flat_map. exists 2. split; [ apply from_to_in; lia |].
      unfold visit_row. apply in_app_iff. right. apply in_app_iff. left. apply in_map_iff. exists rows. split; auto. apply from_to_in.
      change (u64 (1 - 2)) with 18446744073709551615. lia. }
    apply A in I. unfold in_lookup in I. lia.
  - intros F [[r c] b] I. apply (in_map fst) in I. rewrite visits_grid in I by auto. cbn [fst] in I. apply in_grid in I. cbn [fst snd] in I. unfold in_lookup. nia.
Qed.

(** ** the next level *)
Definition even2 (p : Z * Z) : bool := (fst p mod 2 =? 0) && (snd p mod 2 =? 0).
Lemma map_filter {A B} (f : A -> B) (P : B -> bool) l : map f (filter (fun x => P (f x)) l) = filter P (map f l).
Proof. induction l as [|a l IH]; cbn [map filter]; auto. destruct (P (f a)); cbn [map]; now rewrite IH. Qed.
Lemma zseq_snoc a n : zseq a (S n) = zseq a n ++ [a + Z.of_nat n].
Proof. replace (S n) with (n + 1)%nat by lia. rewrite zseq_app. f_equal. unfold zseq. cbn [seq map]. f_equal. lia. Qed.
Lemma evens n : map (fun x => x / 2) (filter (fun x => x mod 2 =? 0) (zseq 0 n)) = zseq 0 (Z.to_nat (half (Z.of_nat n))).
Proof.
  induction n as [|n IH]; [ reflexivity |]. rewrite zseq_snoc, filter_app, map_app, IH, Z.add_0_l. unfold half.
  pose proof (Z.div_mod (Z.of_nat n) 2 ltac:(lia)) as D. pose proof (Z.mod_pos_bound (Z.of_nat n) 2 ltac:(lia)) as M.
  pose proof (Z.div_mod (Z.of_nat n + 1) 2 ltac:(lia)) as D1. pose proof (Z.mod_pos_bound (Z.of_nat n + 1) 2 ltac:(lia)) as M1.
  pose proof (Z.div_mod (Z.of_nat (S n) + 1) 2 ltac:(lia)) as D2. pose proof (Z.mod_pos_bound (Z.of_nat (S n) + 1) 2 ltac:(lia)) as M2.
  cbn [filter]. destruct (Z.eqb_spec (Z.of_nat n mod 2) 0) as [E|E]; cbn [map].
  - replace (Z.to_nat ((Z.of_nat (S n) + 1) / 2)) with (S (Z.to_nat ((Z.of_nat n + 1) / 2))) by lia. rewrite zseq_snoc. f_equal. f_equal. lia.
  - rewrite app_nil_r. f_equal. lia.
Qed.
Lemma evens_range n : 0 <= n -> map (fun x => x / 2) (filter (fun x => x mod 2 =? 0) (zrange 0 n)) = zrange 0 (half n).
Proof. intro P. unfold zrange. rewrite evens. now rewrite Z2Nat.id by lia. Qed.
Lemma filter_even_prod : forall ys xs : list Z, filter even2 (list_prod ys xs) = list_prod (filter (fun y => y mod 2 =? 0) ys) (filter (fun x => x mod 2 =? 0) xs).
Proof.
  induction ys as [|y ys IH]; intro xs; [ reflexivity |]. cbn [list_prod]. rewrite filter_app, IH. cbn [filter].
  assert (filter even2 (map (fun x => (y, x)) xs) = if y mod 2 =? 0 then map (fun x => (y, x)) (filter (fun x => x mod 2 =? 0) xs) else []) as ->.
  { induction xs as [|x xs IHx]; cbn [map filter]. { now destruct (y mod 2 =? 0). } rewrite IHx. unfold even2 at 1. cbn [fst snd]. destruct (y mod 2 =? 0); cbn [andb]; auto. now destruct (x mod 2 =? 0). }
  now destruct (y mod 2 =? 0).
Qed.
Lemma map_half_prod : forall ys xs : list Z, map (fun p : Z * Z => (fst p / 2, snd p / 2)) (list_prod ys xs) = list_prod (map (fun y => y / 2) ys) (map (fun x => x / 2) xs).
Proof. induction ys as [|y ys IH]; intro xs; [ reflexivity |]. cbn [list_prod map]. rewrite map_app, IH, !map_map. reflexivity. Qed.
Theorem next_level rows cols : sizes rows cols -> fits rows cols -> map next_pos (next_writes rows cols) = grid 0 (half rows) 0 (half cols).
Proof.
  intros S F. unfold next_writes.
  transitivity (map (fun p : Z * Z => (fst p / 2, snd p / 2)) (map fst (filter (fun v => even2 (fst v)) (visits rows cols)))).
  { rewrite map_map. rewrite (filter_ext _ (fun v => even2 (fst v))) by (intros [[r c] b]; reflexivity). apply map_ext. intros [[r c] b]. reflexivity. }
  rewrite map_filter, visits_grid by auto. unfold grid. destruct S as [R C]. rewrite filter_even_prod, map_half_prod, !evens_range by lia. reflexivity.
Qed.

Lemma sum_bounds : forall l lo hi, (forall x, In x l -> lo <= x <= hi) -> lo * Z.of_nat (length l) <= fold_right Z.add 0 l <= hi * Z.of_nat (length l).
Proof.
  induction l as [|a l IH]; intros lo hi B; [ cbn; lia |]. specialize (IH lo hi (fun x I => B x (or_intror I))). specialize (B a (or_introl eq_refl)). cbn [fold_right length]. nia.
Qed.
Theorem next_value_range img nb r c b lo hi : 0 <= lo -> hi <= 255 -> lo <= img r c <= hi -> length (nb r c) = 16%nat -> (forall x, In x (nb r c) -> lo <= x <= hi) ->
  lo <= next_value img nb (r, c, b) <= hi.
Proof.
  intros L Hh I Len B. unfold next_value. destruct b; auto. pose proof (sum_bounds _ lo hi B) as S. rewrite Len in S. change (Z.of_nat 16) with 16 in S.
  assert (lo <= fold_right Z.add 0 (nb r c) / 16 <= hi). { split; [ apply Z.div_le_lower_bound; lia | apply Z.div_le_upper_bound; lia ]. }
  rewrite Z.mod_small; lia.
Qed.
Theorem next_value_mean img nb r c : length (nb r c) = 16%nat -> (forall x, In x (nb r c) -> 0 <= x <= 255) ->
  next_value img nb (r, c, true) = fold_right Z.add 0 (nb r c) / 16.
Proof.
  intros Len B. unfold next_value. pose proof (sum_bounds _ 0 255 B) as S. rewrite Len in S. change (Z.of_nat 16) with 16 in S.
  apply Z.mod_small. split; [ apply Z.div_pos; lia | apply Z.div_lt_upper_bound; lia ].
Qed.

(** ** level sizes *)
Theorem level_size n l : 1 <= n -> level n l = (n + 2 ^ Z.of_nat l - 1) / 2 ^ Z.of_nat l.
Proof.
  intro P. induction l as [|l IH].
  - cbn [level]. change (2 ^ Z.of_nat 0) with 1. rewrite Z.div_1_r. lia.
  - cbn [level]. rewrite IH. unfold half. rewrite Nat2Z.inj_succ, Z.pow_succ_r by lia. set (k := 2 ^ Z.of_nat l). assert (0 < k) by (apply Z.pow_pos_nonneg; lia).
    rewrite <- (Z.div_add _ 1 k) by lia. rewrite Z.div_div by lia. rewrite (Z.mul_comm k 2). f_equal. lia.
Qed.
Lemma level_at_least_2 n l : 1 <= n -> (2 <= level n l <-> 2 ^ Z.of_nat l < n).
Proof.
  intro P. rewrite level_size by auto. set (k := 2 ^ Z.of_nat l). assert (0 < k) by (apply Z.pow_pos_nonneg; lia). split.
  - intro L. destruct (Z_lt_dec k n); auto. assert ((n + k - 1) / k < 2) by (apply Z.div_lt_upper_bound; lia). lia.
  - intro L. apply Z.div_le_lower_bound; lia.
Qed.
Lemma level_pos n l : 1 <= n -> 1 <= level n l <= n.
Proof.
  intro P. induction l as [|l IH]; cbn [level]; [ lia |]. unfold half. pose proof (Z.div_mod (level n l + 1) 2 ltac:(lia)). pose proof (Z.mod_pos_bound (level n l + 1) 2 ltac:(lia)). lia.
Qed.
Lemma level_sizes H W l : sizes H W -> sizes (level H l) (level W l).
Proof. intros [A B]. pose proof (level_pos H l ltac:(lia)). pose proof (level_pos W l ltac:(lia)). unfold sizes. lia. Qed.
Lemma pow_le l L : (l < L)%nat -> 2 ^ Z.of_nat l <= 2 ^ (Z.of_nat L - 1).
Proof. intro B. apply Z.pow_le_mono_r; lia. Qed.
Theorem pyramid_safe H W L : sizes H W -> 2 ^ (Z.of_nat L - 1) < H -> 2 ^ (Z.of_nat L - 1) < W ->
  forall l, (l < L)%nat -> forall v, In v (visits (level H l) (level W l)) -> in_lookup (level H l) (level W l) v.
Proof.
  intros S Bh Bw l Bl. pose proof (level_sizes H W l S) as Sl. apply (visits_safe _ _ Sl). pose proof (pow_le l L Bl). destruct S. split; [| left ]; apply level_at_least_2; lia.
Qed.
Theorem pyramid_unsafe H W L : (0 < L)%nat -> sizes H W -> H <= 2 ^ (Z.of_nat L - 1) ->
  exists l v, (l < L)%nat /\ In v (visits (level H l) (level W l)) /\ ~ in_lookup (level H l) (level W l) v.
Proof.
  intros HL S B. set (l := (L - 1)%nat). pose proof (level_sizes H W l S) as Sl.
  assert (E1 : level H l = 1). { pose proof (level_pos H l ltac:(destruct S; lia)). assert (~ 2 <= level H l). { rewrite level_at_least_2 by (destruct S; lia). replace (Z.of_nat l) with (Z.of_nat L - 1) by lia. lia. } lia. }
  exists l, (1, 0, false). split; [ lia |]. rewrite E1. destruct Sl as [_ Sl]. split.
  - unfold visits. apply in_app_iff. left. apply in_flat_map. exists 1. split; [ apply from_to_in; lia |]. unfold border_row. apply in_map_iff. exists 0. split; auto. apply from_to_in. lia.
  - unfold in_lookup. lia.
Qed.
