From Coq Require Import ZArith Reals List Bool Lia Lra Arith Permutation.
From Verif Require Import Lib.Grid Model.Slic Model.GpuSlic Spec.Affinity Spec.GpuSlic Proofs.Affinity.
Import ListNotations.
Open Scope Z_scope.

Lemma div_up_spec a b : 0 < b -> a <= div_up a b * b < a + b.
Proof.
  intro B. unfold div_up. assert (D := Z.div_mod a b ltac:(lia)). assert (M := Z.mod_pos_bound a b B). destruct (Z.eqb_spec (a mod b) 0); nia.
Qed.
Lemma div_up_pos a b : 0 < b -> 0 < a -> 0 < div_up a b.
Proof. intros B A. assert (H := div_up_spec a b B). nia. Qed.
Lemma nodup_map_in {A B} (g : A -> B) l : NoDup l -> (forall x y, In x l -> In y l -> g x = g y -> x = y) -> NoDup (map g l).
Proof.
  induction 1 as [|x l N D IH]; intro I; [ constructor |]. cbn. constructor.
  - rewrite in_map_iff. intros (y & E & Y). apply N. rewrite (I x y); [ exact Y | now left | now right | now symmetry ].
  - apply IH. intros y z Y Z. apply I; now right.
Qed.
Lemma sum_filter {A} (g : A -> bool) (v : A -> R) l : sum (fun x => if g x then v x else 0%R) l = sum v (filter g l).
Proof. induction l as [|x l IH]; [ reflexivity |]. cbn [filter]. rewrite sum_cons, IH. destruct (g x); [ now rewrite sum_cons | lra ]. Qed.
Lemma sum_app {A} (v : A -> R) l r : sum v (l ++ r) = (sum v l + sum v r)%R.
Proof. induction l as [|x l IH]; [ change (sum v (@nil A)) with 0%R; cbn [app]; lra |]. cbn [app]. rewrite !sum_cons, IH. lra. Qed.
Lemma sum_none {A} (v : A -> R) l : (forall x, In x l -> v x = 0%R) -> sum v l = 0%R.
Proof. intro H. rewrite (sum_ext v (fun _ => 0%R)) by exact H. clear. induction l; [ reflexivity |]. rewrite sum_cons, IHl. lra. Qed.
Lemma sum_ones {A} (l : list A) : sum (fun _ => 1%R) l = INR (length l).
Proof. induction l as [|x l IH]; [ reflexivity |]. rewrite sum_cons, IH. change (length (x :: l)) with (S (length l)). rewrite S_INR. lra. Qed.

(* the nearest centre *)
Section Nearest.
Context (dist : Z -> R).
Lemma closest_fold l : forall k0 d0, let r := fold_left (fun best k => let d := dist k in if Rlt_dec d (snd best) then (k, d) else best) l (k0, d0) in
  (r = (k0, d0) /\ forall j, In j l -> (d0 <= dist j)%R) \/
  exists pre k post, l = pre ++ k :: post /\ r = (k, dist k) /\ (dist k < d0)%R /\ (forall j, In j pre -> (dist k < dist j)%R) /\ (forall j, In j post -> (dist k <= dist j)%R).
Proof.
  induction l as [|x l IH]; intros k0 d0; cbv zeta; [ left; split; [ reflexivity | intros j [] ] |]. cbn [fold_left snd]. destruct (Rlt_dec (dist x) d0) as [L|L].
  - right. destruct (IH x (dist x)) as [(E & A)|(pre & k & post & E & F & D & A & B)].
    + exists [], x, l. split; [ reflexivity |]. split; [ exact E |]. split; [ exact L |]. split; [ intros j [] | exact A ].
    + exists (x :: pre), k, post. split; [ now rewrite E |]. split; [ exact F |]. split; [ lra |]. split; [| exact B ]. intros j [<-|J]; [ exact D | now apply A ].
  - destruct (IH k0 d0) as [(E & A)|(pre & k & post & E & F & D & A & B)].
    + left. split; [ exact E |]. intros j [<-|J]; [ lra | now apply A ].
    + right. exists (x :: pre), k, post. split; [ now rewrite E |]. split; [ exact F |]. split; [ exact D |]. split; [| exact B ]. intros j [<-|J]; [ lra | now apply A ].
Qed.
End Nearest.
Lemma closest_unique limit dist l k j : closest limit dist l k -> closest limit dist l j -> k = j.
Proof.
  intros (pre & post & E & _ & A & B) (pre2 & post2 & E2 & _ & A2 & B2).
  rewrite E in E2. apply app_eq_app in E2. destruct E2 as (m & [(F & G)|(F & G)]); subst; destruct m as [|y m]; cbn in G; injection G as G1 G2; try congruence.
  - subst y post2. assert (H := A j ltac:(apply in_elt)). assert (H2 := B2 k ltac:(apply in_elt)). lra.
  - subst y post. assert (H := A2 k ltac:(apply in_elt)). assert (H2 := B j ltac:(apply in_elt)). lra.
Qed.

Section Slic.
Context (p : params) (f : frame).
Hypothesis W : 0 < width p.
Hypothesis H : 0 < height p.
Hypothesis D : 3 <= diam p.
Hypothesis T : diam p * diam p <= max_threads p.
Notation d := (diam p). Notation n := (per_row p). Notation m := (per_col p).
Lemma n_spec : width p <= n * d < width p + d. Proof. apply div_up_spec. lia. Qed.
Lemma m_spec : height p <= m * d < height p + d. Proof. apply div_up_spec. lia. Qed.
Lemma n_pos : 0 < n. Proof. apply div_up_pos; lia. Qed.
Lemma m_pos : 0 < m. Proof. apply div_up_pos; lia. Qed.
Lemma one_layer : layers p = 1.
Proof.
  unfold layers, div_up. assert (0 < d * d) by nia. destruct (Z.eq_dec (d * d) (max_threads p)) as [E|E].
  - rewrite E, Z.mod_same, Z.div_same by lia. reflexivity.
  - rewrite Z.mod_small, Z.div_small by lia. destruct (Z.eqb_spec (d * d) 0); lia.
Qed.
Lemma full_height : block_height p = d.
Proof. unfold block_height. apply Z.min_l. apply Z.div_le_lower_bound; lia. Qed.
Lemma it_launches : launches p = true.
Proof. unfold launches. rewrite full_height. apply andb_true_iff. rewrite Z.leb_le. lia. Qed.
Lemma in_threads t : In t (threads p) <-> 0 <= fst (fst t) < m /\ 0 <= snd (fst t) < n /\ fst t = cell d (snd t).
Proof.
  unfold threads. rewrite in_map_iff. split.
  - intros ([[[y x] z] [ty tx]] & E & I). apply in_prod_iff in I. destruct I as (I & J). apply in_prod_iff in I. destruct I as (I & K). apply in_grid in I, J. cbn [fst snd] in I, J. apply in_zrange in K.
    rewrite one_layer in K. rewrite full_height in J. unfold place in E. rewrite one_layer, full_height in E. subst t. cbn [fst snd]. split; [ lia |]. split; [ lia |]. unfold cell. cbn [fst snd].
    f_equal; [ apply (Z.div_unique _ _ _ ty) | apply (Z.div_unique _ _ _ tx) ]; lia.
  - destruct t as [[y x] [py px]]. unfold cell. cbn [fst snd]. intros (Y & X & E). injection E as E1 E2.
    assert (M1 := Z.mod_pos_bound py d ltac:(lia)). assert (M2 := Z.mod_pos_bound px d ltac:(lia)). assert (D1 := Z.div_mod py d ltac:(lia)). assert (D2 := Z.div_mod px d ltac:(lia)).
    exists (y, x, 0, (py mod d, px mod d)). split.
    + unfold place. rewrite one_layer, full_height. f_equal. f_equal; lia.
    + apply in_prod; [ apply in_prod |]; [ apply in_grid; cbn; lia | apply in_zrange; rewrite one_layer; lia | apply in_grid; cbn [fst snd]; rewrite full_height; lia ].
Qed.
Lemma threads_nodup : NoDup (threads p).
Proof.
  unfold threads. apply nodup_map_in.
  - apply nodup_prod; [ apply nodup_prod |]; try apply nodup_grid. apply nodup_zseq.
  - intros [[[y x] z] [ty tx]] [[[y2 x2] z2] [ty2 tx2]] I J. apply in_prod_iff in I, J. destruct I as (I & I3), J as (J & J3). apply in_prod_iff in I, J. destruct I as (I & I2), J as (J & J2).
    apply in_zrange in I2, J2. rewrite one_layer in I2, J2. unfold place. rewrite one_layer, full_height. intro E. injection E as E1 E2 E3 E4. subst y2 x2. assert (z2 = z) by lia. subst z2. assert (ty2 = ty) by lia. assert (tx2 = tx) by lia. now subst.
Qed.
Lemma covered : Permutation (filter (fun t => inside p (snd t)) (threads p)) (map (fun q => (cell d q, q)) (grid 0 (height p) 0 (width p))).
Proof.
  apply NoDup_Permutation.
  - apply NoDup_filter, threads_nodup.
  - apply nodup_map_in; [ apply nodup_grid |]. intros x y _ _ E. now injection E.
  - intros [b q]. rewrite filter_In, in_threads, in_map_iff. unfold inside, cell. cbn [fst snd]. rewrite andb_true_iff, !Z.ltb_lt. assert (N := n_spec). assert (M := m_spec). split.
    + intros ((Y & X & E) & I1 & I2). exists q. split; [ now rewrite <- E |]. apply in_grid. subst b. cbn [fst snd] in *.
      assert (0 <= fst q) by (assert (D1 := Z.div_mod (fst q) d ltac:(lia)); assert (M1 := Z.mod_pos_bound (fst q) d ltac:(lia)); nia).
      assert (0 <= snd q) by (assert (D1 := Z.div_mod (snd q) d ltac:(lia)); assert (M1 := Z.mod_pos_bound (snd q) d ltac:(lia)); nia). lia.
    + intros (q' & E & I). injection E as <- ->. apply in_grid in I. cbn [fst snd]. repeat split; try lia; try (apply Z.div_pos; lia); apply Z.div_lt_upper_bound; lia.
Qed.

Lemma flat_filter {A B} (g : A -> bool) (v : A -> B) l : flat_map (fun e => if g e then [v e] else []) l = map v (filter g l).
Proof. induction l as [|x l IH]; [ reflexivity |]. cbn. rewrite IH. destruct (g x); reflexivity. Qed.
Lemma around_cells b : around p b = map (number n) (cells_around m n b).
Proof.
  unfold cells_around. rewrite <- flat_filter. assert (N := n_pos).
  assert (G : grid (fst b - 1) 3 (snd b - 1) 3 = flat_map (fun i => map (fun j => (fst b + i, snd b + j)) [-1; 0; 1]) [-1; 0; 1]).
  { unfold grid. change (zrange (fst b - 1) 3) with [fst b - 1 + 0; fst b - 1 + 1; fst b - 1 + 2]. change (zrange (snd b - 1) 3) with [snd b - 1 + 0; snd b - 1 + 1; snd b - 1 + 2]. cbn [list_prod map flat_map app].
    replace (fst b - 1 + 0) with (fst b + -1) by lia. replace (fst b - 1 + 1) with (fst b + 0) by lia. replace (fst b - 1 + 2) with (fst b + 1) by lia.
    replace (snd b - 1 + 0) with (snd b + -1) by lia. replace (snd b - 1 + 1) with (snd b + 0) by lia. replace (snd b - 1 + 2) with (snd b + 1) by lia. reflexivity. }
  rewrite G. unfold around.
  assert (C : forall i j, (let x := snd b + j in let k := (fst b + i) * n + x in if (x <? 0) || (n <=? x) || (k <? 0) || (spx p <=? k) then [] else [k]) =
    (if (0 <=? fst (fst b + i, snd b + j)) && (fst (fst b + i, snd b + j) <? m) && (0 <=? snd (fst b + i, snd b + j)) && (snd (fst b + i, snd b + j) <? n) then [number n (fst b + i, snd b + j)] else [])).
  { intros i j. cbv zeta. unfold number, spx. cbn [fst snd]. generalize (fst b + i) (snd b + j). intros y x.
    destruct ((0 <=? y) && (y <? m) && (0 <=? x) && (x <? n)) eqn:E.
    - rewrite !andb_true_iff, !Z.leb_le, !Z.ltb_lt in E. replace ((x <? 0) || (n <=? x) || (y * n + x <? 0) || (n * m <=? y * n + x)) with false; [ reflexivity |].
      symmetry. rewrite !orb_false_iff, !Z.ltb_ge, !Z.leb_gt. nia.
    - replace ((x <? 0) || (n <=? x) || (y * n + x <? 0) || (n * m <=? y * n + x)) with true; [ reflexivity |].
      symmetry. rewrite !orb_true_iff, !Z.ltb_lt, !Z.leb_le. rewrite !andb_false_iff, !Z.leb_gt, !Z.ltb_ge in E. nia. }
  cbn [flat_map map app]. rewrite !C. now rewrite !app_nil_r, <- !app_assoc.
Qed.

(* one assignment *)
Definition pick (c : Z -> nat -> R) (t : thread) : Z := fst (nearest p f c t).
Lemma assign_snoc order t s : assign p f (order ++ [t]) s = match assign p f order s with Some s' => work p f s' t | None => None end.
Proof. unfold assign. rewrite fold_left_app. reflexivity. Qed.
Lemma assign_some order s : (forall t, In t order -> inside p (snd t) = true -> 0 <= pick (clusters s) t) -> exists s', assign p f order s = Some s' /\ clusters s' = clusters s /\
  (forall c a, sums s' c a = (sums s c a + sum (fun t => if inside p (snd t) && (pick (clusters s) t =? c) then attribute f (snd t) a else 0) order)%R) /\
  (forall q, (forall t, In t order -> inside p (snd t) = true -> snd t <> q) -> labels s' q = labels s q) /\
  (forall q v, (forall t, In t order -> inside p (snd t) = true -> snd t = q -> pick (clusters s) t = v) -> (exists t, In t order /\ inside p (snd t) = true /\ snd t = q) -> labels s' q = v).
Proof.
  induction order as [|t order IH] using rev_ind; intro P.
  - exists s. split; [ reflexivity |]. split; [ reflexivity |]. split; [ intros; cbn; lra |]. split; [ reflexivity |]. intros q v _ (t & [] & _).
  - destruct IH as (s' & E & C & S & L1 & L2); [ intros u U; apply P, in_app_iff; now left |]. rewrite assign_snoc, E. unfold work. rewrite C. fold (pick (clusters s) t).
    destruct (inside p (snd t)) eqn:I.
    + assert (K := P t ltac:(apply in_app_iff; right; now left) I). replace (pick (clusters s) t <? 0) with false by (symmetry; apply Z.ltb_ge; lia).
      eexists. split; [ reflexivity |]. cbn [clusters sums labels]. split; [ reflexivity |]. split; [| split ].
      * intros c a. rewrite sum_app, sum_cons, I. cbn [andb sum fold_right]. rewrite (Z.eqb_sym (pick (clusters s) t) c). rewrite S. destruct (c =? pick (clusters s) t); lra.
      * intros q N. destruct ((fst q =? fst (snd t)) && (snd q =? snd (snd t))) eqn:Q.
        -- exfalso. apply andb_true_iff in Q. rewrite !Z.eqb_eq in Q. apply (N t); [ apply in_app_iff; right; now left | exact I |]. destruct q, (snd t). cbn in Q. f_equal; lia.
        -- apply L1. intros u U. apply N, in_app_iff. now left.
      * intros q v V (u & U & UI & UQ). destruct ((fst q =? fst (snd t)) && (snd q =? snd (snd t))) eqn:Q.
        -- apply V; [ apply in_app_iff; right; now left | exact I |]. apply andb_true_iff in Q. rewrite !Z.eqb_eq in Q. destruct q, (snd t). cbn in Q. f_equal; lia.
        -- apply L2; [ intros u' U'; apply V, in_app_iff; now left |]. exists u. split; [| tauto ]. apply in_app_iff in U. destruct U as [U|[<-|[]]]; [ exact U |]. exfalso. subst q. rewrite !Z.eqb_refl in Q. discriminate.
    + exists s'. split; [ reflexivity |]. split; [ exact C |]. split; [| split ].
      * intros c a. rewrite sum_app, sum_cons, I. cbn [andb sum fold_right]. rewrite S. lra.
      * intros q N. apply L1. intros u U. apply N, in_app_iff. now left.
      * intros q v V (u & U & UI & UQ). apply L2; [ intros u' U'; apply V, in_app_iff; now left |]. exists u. split; [| tauto ]. apply in_app_iff in U. destruct U as [U|[<-|[]]]; [ exact U |]. congruence.
Qed.
Lemma assign_none order s : (exists t, In t order /\ inside p (snd t) = true /\ pick (clusters s) t < 0) -> assign p f order s = None.
Proof.
  induction order as [|t order IH] using rev_ind; intros (u & U & I & K); [ destruct U |]. rewrite assign_snoc.
  destruct (assign p f order s) as [s'|] eqn:E; [| reflexivity ]. apply in_app_iff in U. destruct U as [U|[->|[]]]; [ exfalso; assert (Some s' = None) by eauto; discriminate |].
  assert (C : clusters s' = clusters s).
  { clear IH. revert s' E. induction order as [|t order IH2] using rev_ind; intros s' E; [ injection E as <-; reflexivity |]. rewrite assign_snoc in E. destruct (assign p f order s) as [s1|] eqn:E1; [| discriminate ].
    specialize (IH2 s1 eq_refl). unfold work in E. destruct (inside p (snd t)); [ destruct (_ <? 0); [ discriminate | injection E as <-; exact IH2 ] | injection E as <-; exact IH2 ]. }
  unfold work. rewrite C, I. fold (pick (clusters s) u). replace (pick (clusters s) u <? 0) with true by (symmetry; apply Z.ltb_lt; exact K). reflexivity.
Qed.

Definition pixels : list (Z * Z) := grid 0 (height p) 0 (width p).
Lemma thread_of q : In q pixels -> In (cell d q, q) (threads p) /\ inside p q = true.
Proof.
  intro I. assert (J : In (cell d q, q) (filter (fun t => inside p (snd t)) (threads p))) by (apply (Permutation_in _ (Permutation_sym covered)), in_map_iff; now exists q). apply filter_In in J. exact J.
Qed.
Lemma thread_pixel t : In t (threads p) -> inside p (snd t) = true -> In (snd t) pixels /\ fst t = cell d (snd t).
Proof.
  intros I J. assert (K : In t (filter (fun t => inside p (snd t)) (threads p))) by (now apply filter_In). apply (Permutation_in _ covered) in K. apply in_map_iff in K. destruct K as (q & <- & Q). split; [ exact Q | reflexivity ].
Qed.
Lemma assign_covered order s : Permutation order (threads p) -> (forall q, In q pixels -> 0 <= pick (clusters s) (cell d q, q)) -> exists s', assign p f order s = Some s' /\ clusters s' = clusters s /\
  (forall q, In q pixels -> labels s' q = pick (clusters s) (cell d q, q)) /\ (forall q, ~ In q pixels -> labels s' q = labels s q) /\
  forall c a, sums s' c a = (sums s c a + sum (fun q => attribute f q a) (members (height p) (width p) (labels s') c))%R.
Proof.
  intros P K. destruct (assign_some order s) as (s' & E & C & S & L1 & L2).
  { intros t I J. apply (Permutation_in _ P) in I. destruct (thread_pixel t I J) as (Q & F). specialize (K _ Q). rewrite <- F in K. now destruct t. }
  assert (L : forall q, In q pixels -> labels s' q = pick (clusters s) (cell d q, q)).
  { intros q Q. apply L2.
    - intros t I J F. apply (Permutation_in _ P) in I. destruct (thread_pixel t I J) as (_ & G). rewrite F in G. destruct t as [b r]. cbn [fst snd] in *. now subst.
    - exists (cell d q, q). destruct (thread_of q Q) as (A & B). split; [ exact (Permutation_in _ (Permutation_sym P) A) | split; [ exact B | reflexivity ] ]. }
  exists s'. split; [ exact E |]. split; [ exact C |]. split; [ exact L |]. split.
  - intros q N. apply L1. intros t I J F. apply N. apply (Permutation_in _ P) in I. destruct (thread_pixel t I J) as (Q & _). now rewrite <- F.
  - intros c a. rewrite S. f_equal. rewrite (sum_perm _ _ _ P).
    rewrite (sum_ext _ (fun t => if inside p (snd t) then (if pick (clusters s) t =? c then attribute f (snd t) a else 0%R) else 0%R)) by (intros t _; destruct (inside p (snd t)); reflexivity).
    rewrite (sum_filter (fun t => inside p (snd t))), (sum_perm _ _ _ covered), sum_map. unfold members. rewrite <- sum_filter. apply sum_ext. intros q Q. cbn [snd]. now rewrite (L q Q).
Qed.

(* invariants *)
Definition zeroed (s : state) : Prop := forall k a, 0 <= k < spx p -> (a < 6)%nat -> sums s k a = 0%R.
Definition on_image (c : Z -> nat -> R) : Prop := forall k, 0 <= k < spx p -> (0 <= c k 3%nat)%R.
Lemma in_around b k : In k (around p b) <-> exists i j, k = number n (i, j) /\ 0 <= i < m /\ 0 <= j < n /\ fst b - 1 <= i <= fst b + 1 /\ snd b - 1 <= j <= snd b + 1.
Proof.
  rewrite around_cells, in_map_iff. unfold cells_around. split.
  - intros ([i j] & <- & I). apply filter_In in I. destruct I as (G & F). apply in_grid in G. rewrite !andb_true_iff, !Z.leb_le, !Z.ltb_lt in F. cbn [fst snd] in *. exists i, j. split; [ reflexivity | lia ].
  - intros (i & j & -> & I). exists (i, j). split; [ reflexivity |]. apply filter_In. split; [ apply in_grid; cbn [fst snd]; lia |]. rewrite !andb_true_iff, !Z.leb_le, !Z.ltb_lt. cbn [fst snd]. lia.
Qed.
Lemma number_range i j : 0 <= i < m -> 0 <= j < n -> 0 <= number n (i, j) < spx p.
Proof. unfold number, spx. cbn [fst snd]. nia. Qed.
Lemma number_cell k : 0 <= k < spx p -> exists i j, k = number n (i, j) /\ 0 <= i < m /\ 0 <= j < n.
Proof.
  intro K. assert (N := n_pos). exists (k / n), (k mod n). unfold number, spx in *. cbn [fst snd]. assert (E := Z.div_mod k n ltac:(lia)). assert (M := Z.mod_pos_bound k n N). split; [ lia |]. split; [| lia ].
  split; [ apply Z.div_pos; lia | apply Z.div_lt_upper_bound; lia ].
Qed.
Lemma number_inj i j i' j' : 0 <= j < n -> 0 <= j' < n -> number n (i, j) = number n (i', j') -> i = i' /\ j = j'.
Proof. unfold number. cbn [fst snd]. intros. assert (i = i') by nia. subst. lia. Qed.
Lemma around_range b k : In k (around p b) -> 0 <= k < spx p.
Proof. intro I. apply in_around in I. destruct I as (i & j & -> & I & J & _). now apply number_range. Qed.
Lemma nearest_fold c t : on_image c -> nearest p f c t = fold_left (fun best k => let e := distance p f (snd t) (c k) in if Rlt_dec e (snd best) then (k, e) else best) (around p (fst t)) (-1, 100000%R).
Proof.
  intro O. unfold nearest. assert (A : forall k, In k (around p (fst t)) -> (0 <= c k 3%nat)%R) by (intros k K; apply O, (around_range _ _ K)). revert A. generalize (around p (fst t)) (-1, 100000%R).
  induction l as [|k l IH]; intros e A; [ reflexivity |]. cbn [fold_left]. rewrite IH by (intros j J; apply A; now right). destruct (Req_EM_T (c k 3%nat) (-1)) as [E|_]; [| reflexivity ].
  exfalso. specialize (A k (or_introl eq_refl)). lra.
Qed.
Lemma pick_spec c t : on_image c -> (pick c t = -1 /\ forall k, In k (around p (fst t)) -> (100000 <= distance p f (snd t) (c k))%R) \/
  (0 <= pick c t /\ closest 100000 (fun k => distance p f (snd t) (c k)) (around p (fst t)) (pick c t)).
Proof.
  intro O. unfold pick. rewrite (nearest_fold c t O). cbv zeta. destruct (closest_fold (fun k => distance p f (snd t) (c k)) (around p (fst t)) (-1) 100000) as [(E & A)|(pre & k & post & E & F & L & A & B)].
  - left. cbv zeta in E. rewrite E. split; [ reflexivity | exact A ].
  - right. cbv zeta in F. rewrite F. cbn [fst]. split; [| exists pre, post; auto ]. apply (around_range (fst t)). rewrite E. apply in_elt.
Qed.
Lemma closest_in limit dist l k : closest limit dist l k -> In k l.
Proof. intros (pre & post & -> & _). apply in_elt. Qed.
Lemma members_in lab k q : In q (members (height p) (width p) lab k) <-> In q pixels /\ lab q = k.
Proof. unfold members. rewrite filter_In, Z.eqb_eq. reflexivity. Qed.
Lemma inr_zero k : INR k = 0%R -> k = O.
Proof. destruct k; [ reflexivity |]. rewrite S_INR. assert (H1 := pos_INR k). lra. Qed.

Definition rounds := one_round (height p) (width p) d n m (attribute f) (distance p f).
Lemma assigned order s s' : Permutation order (threads p) -> zeroed s -> on_image (clusters s) -> assign p f order s = Some s' -> rounds (clusters s) (labels s') (clusters (update p s')) /\
  zeroed (update p s') /\ on_image (clusters (update p s')) /\ labels (update p s') = labels s' /\ (forall q, ~ In q pixels -> labels s' q = labels s q).
Proof.
  intros P Z O E. assert (K : forall q, In q pixels -> 0 <= pick (clusters s) (cell d q, q)).
  { intros q Q. destruct (Z_lt_le_dec (pick (clusters s) (cell d q, q)) 0) as [L|L]; [| exact L ]. exfalso. rewrite assign_none in E; [ discriminate |]. exists (cell d q, q). destruct (thread_of q Q) as (A & B). split; [ exact (Permutation_in _ (Permutation_sym P) A) | auto ]. }
  destruct (assign_covered order s P K) as (s2 & E2 & C & L & L0 & S). rewrite E2 in E. injection E as ->.
  assert (S5 : forall k, 0 <= k < spx p -> sums s' k 5%nat = INR (length (members (height p) (width p) (labels s') k))).
  { intros k R. rewrite S, Z by (assumption || lia). rewrite <- sum_ones. rewrite Rplus_0_l. apply sum_ext. reflexivity. }
  assert (N : forall k a, 0 <= k < spx p -> (a < 5)%nat -> clusters (update p s') k a = match members (height p) (width p) (labels s') k with [] => clusters s k a | l => average (fun q => attribute f q a) l end).
  { intros k a R A. unfold update. cbn [clusters]. replace ((0 <=? k) && (k <? spx p) && (a <? 5)%nat) with true by (symmetry; rewrite !andb_true_iff, Z.leb_le, Z.ltb_lt, Nat.ltb_lt; lia).
    rewrite (S5 k R), C. destruct (Req_EM_T _ 0) as [E0|E0].
    - apply inr_zero in E0. destruct (members _ _ _ k); [ reflexivity | discriminate ].
    - rewrite S, Z by (assumption || lia). destruct (members _ _ _ k); [ now contradict E0 |]. unfold average. now rewrite Rplus_0_l. }
  split; [| split; [| split; [| split; [ reflexivity | exact L0 ] ] ] ].
  - split; [| exact N ]. intros q Q. rewrite <- around_cells, (L q Q). destruct (pick_spec (clusters s) (cell d q, q) O) as [(F & _)|(_ & F)]; [| exact F ]. specialize (K q Q). lia.
  - intros k a R A. unfold update. cbn [sums]. replace ((0 <=? k) && (k <? spx p) && (a <? 6)%nat) with true by (symmetry; rewrite !andb_true_iff, Z.leb_le, Z.ltb_lt, Nat.ltb_lt; lia).
    destruct (Req_EM_T (sums s' k 5%nat) 0) as [E0|E0]; [| reflexivity ]. rewrite S5 in E0 by exact R. apply inr_zero in E0. rewrite S, Z by assumption. destruct (members _ _ _ k); [ cbn; lra | discriminate ].
  - intros k R. rewrite N by (assumption || lia). destruct (members _ _ _ k) as [|q l] eqn:M; [ now apply O |].
    apply (average_bound _ _ 0%R (IZR (width p))); [ discriminate |]. intros r I. rewrite <- M in I. apply members_in in I. destruct I as (I & _). apply in_grid in I. cbn [attribute]. split; [ apply IZR_le; lia | apply IZR_le; lia ].
Qed.
Lemma iterated i : forall s r, zeroed s -> on_image (clusters s) -> iterates p f i s (Some r) -> zeroed r /\ on_image (clusters r) /\ (forall q, ~ In q pixels -> labels r q = labels s q) /\
  match i with O => r = s | S _ => kmeans (height p) (width p) d n m (attribute f) (distance p f) i (clusters s) (labels r) (clusters r) end.
Proof.
  induction i as [|i IH]; intros s r Z O I; inversion I as [|? ? ? Hp Ha|? ? order s1 r1 Hp Ha Hi]; subst; [ auto |].
  destruct (assigned order s s1 Hp Z O Ha) as (R & Z1 & O1 & L1 & L2). destruct (IH _ _ Z1 O1 Hi) as (Zr & Or & Lr & K). split; [ exact Zr |]. split; [ exact Or |]. split; [ intros q Q; rewrite (Lr q Q), L1; now apply L2 |].
  destruct i as [|i]; [ subst r; rewrite L1; exact R |]. cbn [kmeans]. exists (labels s1), (clusters (update p s1)). split; [ exact R | exact K ].
Qed.
Lemma seeded s : zeroed s -> zeroed (init_clusters p f s) /\ on_image (clusters (init_clusters p f s)) /\ starts (height p) (width p) d n m (attribute f) (clusters (init_clusters p f s)).
Proof.
  intro Z. split; [ exact Z |]. assert (N := n_pos). assert (S : forall i j a, 0 <= i < m -> 0 <= j < n -> (a < 5)%nat -> clusters (init_clusters p f s) (number n (i, j)) a = seed p f (number n (i, j)) a).
  { intros i j a I J A. assert (R := number_range i j I J). unfold init_clusters. cbn [clusters]. replace ((0 <=? number n (i, j)) && (number n (i, j) <? spx p) && (a <? 5)%nat) with true; [ reflexivity |]. symmetry. rewrite !andb_true_iff, Z.leb_le, Z.ltb_lt, Nat.ltb_lt. lia. }
  assert (M : forall i j, 0 <= j < n -> number n (i, j) mod n = j /\ number n (i, j) / n = i).
  { intros i j J. unfold number. cbn [fst snd]. split; [ symmetry; apply (Z.mod_unique _ _ i); lia | symmetry; apply (Z.div_unique _ _ _ j); lia ]. }
  split.
  - intros k K. destruct (number_cell k K) as (i & j & -> & I & J). rewrite S by (assumption || lia). cbn [seed]. unfold seed_col. destruct (M i j J) as (-> & _). apply IZR_le. assert (0 <= d / 2) by (apply Z.div_pos; lia). nia.
  - intros i j I J q a A. rewrite S by assumption. destruct (M i j J) as (M1 & M2). unfold q. do 5 (destruct a as [|a]; [ unfold seed, attribute, seed_row, seed_col; rewrite ?M1, ?M2; reflexivity |]). lia.
Qed.

(* the same result whatever the order and the past *)
Definition like (c c' : Z -> nat -> R) : Prop := forall k a, 0 <= k < spx p -> (a < 5)%nat -> c k a = c' k a.
Lemma distance_like c c' q k : like c c' -> 0 <= k < spx p -> distance p f q (c k) = distance p f q (c' k).
Proof. intros L K. unfold distance. now rewrite !(L k) by (assumption || lia). Qed.
Lemma closest_like limit d1 d2 l k : (forall j, In j l -> d1 j = d2 j) -> closest limit d1 l k -> closest limit d2 l k.
Proof.
  intros E (pre & post & -> & L & A & B). exists pre, post. assert (Ek := E k ltac:(apply in_elt)). split; [ reflexivity |]. rewrite <- Ek. split; [ exact L |]. split; intros j J; rewrite <- E by (rewrite in_app_iff; cbn; auto); auto.
Qed.
Lemma round_like c1 c2 l1 l2 c1' c2' : like c1 c2 -> rounds c1 l1 c1' -> rounds c2 l2 c2' -> (forall q, In q pixels -> l1 q = l2 q) /\ like c1' c2'.
Proof.
  intros L (A1 & B1) (A2 & B2). assert (E : forall q, In q pixels -> l1 q = l2 q).
  { intros q Q. specialize (A1 q Q). specialize (A2 q Q). refine (closest_unique _ _ _ _ _ _ A2). refine (closest_like _ _ _ _ _ _ A1). intros j J. apply distance_like; [ exact L |]. rewrite <- around_cells in J. exact (around_range _ _ J). }
  split; [ exact E |]. intros k a K A. rewrite (B1 k a), (B2 k a) by (unfold spx in K; lia || assumption).
  replace (members (height p) (width p) l2 k) with (members (height p) (width p) l1 k); [ destruct (members _ _ l1 k); [ now apply L | reflexivity ] |].
  unfold members. apply filter_ext_in. intros q Q. now rewrite (E q Q).
Qed.
Definition alike (i : nat) (r1 r2 : option state) : Prop :=
  match r1, r2 with
  | Some s1, Some s2 => like (clusters s1) (clusters s2) /\ match i with O => True | S _ => forall q, In q pixels -> labels s1 q = labels s2 q end
  | None, None => True
  | _, _ => False
  end.
Lemma pick_like c1 c2 t : like c1 c2 -> on_image c1 -> on_image c2 -> pick c1 t = pick c2 t.
Proof.
  intros L O1 O2. assert (E : forall k, In k (around p (fst t)) -> distance p f (snd t) (c1 k) = distance p f (snd t) (c2 k)) by (intros k K; apply distance_like; [ exact L | exact (around_range _ _ K) ]).
  destruct (pick_spec c1 t O1) as [(E1 & F1)|(P1 & C1)], (pick_spec c2 t O2) as [(E2 & F2)|(P2 & C2)].
  - congruence.
  - exfalso. assert (I := closest_in _ _ _ _ C2). destruct C2 as (? & ? & _ & B & _). rewrite <- E in B by exact I. specialize (F1 _ I). lra.
  - exfalso. assert (I := closest_in _ _ _ _ C1). destruct C1 as (? & ? & _ & B & _). rewrite E in B by exact I. specialize (F2 _ I). lra.
  - refine (closest_unique _ _ _ _ _ _ C2). exact (closest_like _ _ _ _ _ E C1).
Qed.
Lemma fault_like o1 o2 s1 s2 s1' : Permutation o1 (threads p) -> Permutation o2 (threads p) -> like (clusters s1) (clusters s2) -> on_image (clusters s1) -> on_image (clusters s2) ->
  assign p f o1 s1 = Some s1' -> assign p f o2 s2 <> None.
Proof.
  intros P1 P2 L O1 O2 E. destruct (assign_covered o2 s2 P2) as (s2' & E2 & _); [| congruence ]. intros q Q. rewrite <- (pick_like _ _ _ L O1 O2).
  destruct (Z_lt_le_dec (pick (clusters s1) (cell d q, q)) 0) as [M|M]; [| exact M ]. exfalso. rewrite assign_none in E; [ discriminate |]. exists (cell d q, q). destruct (thread_of q Q) as (A & B). split; [ exact (Permutation_in _ (Permutation_sym P1) A) | auto ].
Qed.
Lemma like_sym c1 c2 : like c1 c2 -> like c2 c1. Proof. intros L k a K A. symmetry. now apply L. Qed.
Lemma iterates_like i : forall s1 s2 r1 r2, zeroed s1 -> zeroed s2 -> on_image (clusters s1) -> on_image (clusters s2) -> like (clusters s1) (clusters s2) ->
  iterates p f i s1 r1 -> iterates p f i s2 r2 -> alike i r1 r2.
Proof.
  induction i as [|i IH]; intros s1 s2 r1 r2 Z1 Z2 O1 O2 L I1 I2.
  - inversion I1; inversion I2; subst. cbn. auto.
  - inversion I1 as [|? ? o1 P1 A1|? ? o1 t1 ? P1 A1 J1]; inversion I2 as [|? ? o2 P2 A2|? ? o2 t2 ? P2 A2 J2]; subst.
    + exact I.
    + exfalso. exact (fault_like o2 o1 s2 s1 t2 P2 P1 (like_sym _ _ L) O2 O1 A2 A1).
    + exfalso. exact (fault_like o1 o2 s1 s2 t1 P1 P2 L O1 O2 A1 A2).
    + destruct (assigned o1 s1 t1 P1 Z1 O1 A1) as (R1 & Y1 & Q1 & L1 & _). destruct (assigned o2 s2 t2 P2 Z2 O2 A2) as (R2 & Y2 & Q2 & L2 & _).
      destruct (round_like _ _ _ _ _ _ L R1 R2) as (E & L'). assert (F := IH _ _ _ _ Y1 Y2 Q1 Q2 L' J1 J2). destruct r1 as [u1|], r2 as [u2|]; try exact F. destruct F as (F1 & F2). split; [ exact F1 |].
      destruct i as [|i]; [| exact F2 ]. inversion J1; inversion J2; subst. rewrite L1, L2. exact E.
Qed.

(* no addition outside *)
Definition boxed (B : R) (c : Z -> nat -> R) : Prop := forall i j, 0 <= i < m -> 0 <= j < n -> let k := number n (i, j) in
  (forall a, (a < 3)%nat -> (- B <= c k a <= B)%R) /\ (IZR ((j - 1) * d) <= c k 3%nat <= IZR ((j + 2) * d))%R /\ (IZR ((i - 1) * d) <= c k 4%nat <= IZR ((i + 2) * d))%R.
Definition bounded (B : R) : Prop := forall q a, In q pixels -> (a < 3)%nat -> (- B <= f q a <= B)%R.
Lemma cell_range q : In q pixels -> 0 <= fst (cell d q) < m /\ 0 <= snd (cell d q) < n /\ fst (cell d q) * d <= fst q < (fst (cell d q) + 1) * d /\ snd (cell d q) * d <= snd q < (snd (cell d q) + 1) * d.
Proof.
  intro Q. destruct (thread_of q Q) as (I & _). apply in_threads in I. cbn [fst snd] in I. destruct I as (I & J & _). split; [ exact I |]. split; [ exact J |]. unfold cell. cbn [fst snd].
  assert (D1 := Z.div_mod (fst q) d ltac:(lia)). assert (M1 := Z.mod_pos_bound (fst q) d ltac:(lia)). assert (D2 := Z.div_mod (snd q) d ltac:(lia)). assert (M2 := Z.mod_pos_bound (snd q) d ltac:(lia)). nia.
Qed.
Lemma square_le x y : (- y <= x <= y -> x * x <= y * y)%R. Proof. intro. nra. Qed.
Lemma near B c q : (0 <= B)%R -> bounded B -> boxed B c -> In q pixels -> (distance p f q (c (number n (cell d q))) <= sqrt (12 * (B * B) + 8 * (wc p * wc p)))%R.
Proof.
  intros B0 Bf Bc Q. destruct (cell_range q Q) as (I & J & Y & X). unfold distance. apply sqrt_le_1_alt.
  destruct (Bc (fst (cell d q)) (snd (cell d q)) I J) as (C & CX & CY). rewrite <- surjective_pairing in C, CX, CY. cbv zeta in *. set (k := number n (cell d q)) in *.
  assert (Hc : forall a, (a < 3)%nat -> ((f q a - c k a) * (f q a - c k a) <= 4 * (B * B))%R).
  { intros a A. assert (A1 := Bf q a Q A). assert (A2 := C a A). replace (4 * (B * B))%R with (2 * B * (2 * B))%R by ring. apply square_le. lra. }
  assert (H0 := Hc 0%nat ltac:(lia)). assert (H1 := Hc 1%nat ltac:(lia)). assert (H2 := Hc 2%nat ltac:(lia)).
  assert (Dp : (0 < IZR d)%R) by (apply IZR_lt; lia).
  assert (HX : ((IZR (snd q) - c k 3%nat) * (IZR (snd q) - c k 3%nat) <= 2 * IZR d * (2 * IZR d))%R).
  { apply square_le. destruct X as (X1 & X2). apply IZR_le in X1. apply IZR_lt in X2. rewrite ?mult_IZR, ?plus_IZR, ?minus_IZR in *. lra. }
  assert (HY : ((IZR (fst q) - c k 4%nat) * (IZR (fst q) - c k 4%nat) <= 2 * IZR d * (2 * IZR d))%R).
  { apply square_le. destruct Y as (Y1 & Y2). apply IZR_le in Y1. apply IZR_lt in Y2. rewrite ?mult_IZR, ?plus_IZR, ?minus_IZR in *. lra. }
  set (ds := ((IZR (snd q) - c k 3%nat) * (IZR (snd q) - c k 3%nat) + (IZR (fst q) - c k 4%nat) * (IZR (fst q) - c k 4%nat))%R) in *.
  assert (HS : (ds / IZR (d * d) <= 8)%R).
  { rewrite mult_IZR. assert (0 < IZR d * IZR d)%R by nra. apply (Rmult_le_reg_r (IZR d * IZR d)); [ assumption |]. unfold Rdiv. rewrite Rmult_assoc, Rinv_l by lra. unfold ds. lra. }
  assert (HW : (0 <= wc p * wc p)%R) by nra. assert (HT := Rmult_le_compat_r _ _ _ HW HS). lra.
Qed.
Lemma boxed_on_image B c : on_image c -> boxed B c -> (0 <= B)%R -> bounded B -> (12 * (B * B) + 8 * (wc p * wc p) < 10000000000)%R -> forall q, In q pixels -> 0 <= pick c (cell d q, q).
Proof.
  intros O Bc B0 Bf L q Q. destruct (pick_spec c (cell d q, q) O) as [(_ & F)|(F & _)]; [| exact F ]. exfalso. destruct (cell_range q Q) as (I & J & _).
  assert (N : In (number n (cell d q)) (around p (cell d q))) by (apply in_around; exists (fst (cell d q)), (snd (cell d q)); rewrite <- surjective_pairing; split; [ reflexivity | lia ]).
  specialize (F _ N). cbn [snd] in F. assert (G := near B c q B0 Bf Bc Q).
  assert (K : (sqrt (12 * (B * B) + 8 * (wc p * wc p)) < sqrt (100000 * 100000))%R) by (apply sqrt_lt_1_alt; split; nra). rewrite sqrt_square in K by lra. lra.
Qed.
Lemma boxed_round B c lab c' : bounded B -> boxed B c -> rounds c lab c' -> boxed B c'.
Proof.
  intros Bf Bc (A & U) i j I J k. assert (R := number_range i j I J). fold k in R. destruct (Bc i j I J) as (C & CX & CY). fold k in C, CX, CY.
  assert (V : forall a lo hi, (a < 5)%nat -> (lo <= c k a <= hi)%R -> (forall q, In q pixels -> lab q = k -> (lo <= attribute f q a <= hi)%R) -> (lo <= c' k a <= hi)%R).
  { intros a lo hi Aa Old New. rewrite U by (assumption || (unfold spx in R; lia)). destruct (members _ _ lab k) as [|q l] eqn:M; [ exact Old |]. apply average_bound; [ discriminate |]. intros r Ir. rewrite <- M in Ir. apply members_in in Ir. now apply New. }
  assert (P : forall q, In q pixels -> lab q = k -> fst (cell d q) - 1 <= i <= fst (cell d q) + 1 /\ snd (cell d q) - 1 <= j <= snd (cell d q) + 1).
  { intros q Q E. specialize (A q Q). rewrite <- around_cells in A. apply closest_in, in_around in A. destruct A as (i' & j' & E' & I' & J' & N1 & N2). rewrite E in E'. unfold k in E'. apply number_inj in E'; [| assumption | assumption ]. destruct E' as (<- & <-). auto. }
  split; [| split ].
  - intros a Aa. apply V; [ lia | now apply C |]. intros q Q E. assert (F := Bf q a Q Aa). do 3 (destruct a as [|a]; [ exact F |]). lia.
  - apply V; [ lia | exact CX |]. intros q Q E. destruct (P q Q E) as (_ & N). destruct (cell_range q Q) as (_ & _ & _ & X). cbn [attribute]. split; apply IZR_le; nia.
  - apply V; [ lia | exact CY |]. intros q Q E. destruct (P q Q E) as (N & _). destruct (cell_range q Q) as (_ & _ & X & _). cbn [attribute]. split; apply IZR_le; nia.
Qed.
Lemma boxed_seeds B c : bounded B -> starts (height p) (width p) d n m (attribute f) c -> boxed B c.
Proof.
  intros Bf S i j I J k. specialize (S i j I J). cbv zeta in S. fold k in S. assert (Nn := n_spec). assert (Mm := m_spec).
  assert (E : 0 <= d / 2 <= d) by (split; [ apply Z.div_pos; lia | apply Z.div_le_upper_bound; lia ]).
  assert (X : i * d <= Z.min (i * d + d / 2) (height p - 1) <= (i + 1) * d) by nia. assert (Y : j * d <= Z.min (j * d + d / 2) (width p - 1) <= (j + 1) * d) by nia.
  assert (Q : In (Z.min (i * d + d / 2) (height p - 1), Z.min (j * d + d / 2) (width p - 1)) pixels) by (apply in_grid; cbn [fst snd]; nia).
  split; [| split ].
  - intros a A. rewrite S by lia. assert (F := Bf _ a Q A). do 3 (destruct a as [|a]; [ exact F |]). lia.
  - rewrite S by lia. cbn [attribute fst snd]. split; apply IZR_le; nia.
  - rewrite S by lia. cbn [attribute fst snd]. split; apply IZR_le; nia.
Qed.
Lemma no_fault B i : (0 <= B)%R -> bounded B -> (12 * (B * B) + 8 * (wc p * wc p) < 10000000000)%R -> forall s, zeroed s -> on_image (clusters s) -> boxed B (clusters s) ->
  (forall r, iterates p f i s r -> r <> None) /\ exists r, iterates p f i s (Some r).
Proof.
  intros B0 Bf L. induction i as [|i IH]; intros s Z O Bc.
  - split; [| exists s; constructor ]. intros r I. inversion I. discriminate.
  - assert (K := boxed_on_image B (clusters s) O Bc B0 Bf L). assert (Next : forall o s', Permutation o (threads p) -> assign p f o s = Some s' -> (forall r, iterates p f i (update p s') r -> r <> None) /\ exists r, iterates p f i (update p s') (Some r)).
    { intros o s' P A. destruct (assigned o s s' P Z O A) as (R & Z1 & O1 & _). apply IH; [ exact Z1 | exact O1 | exact (boxed_round B _ _ _ Bf Bc R) ]. }
    split.
    + intros r I. inversion I as [|? ? o P A|? ? o s' ? P A Hi]; subst.
      * destruct (assign_covered o s P K) as (s' & E & _). congruence.
      * exact (proj1 (Next o s' P A) r Hi).
    + destruct (assign_covered (threads p) s (Permutation_refl _) K) as (s' & E & _). destruct (proj2 (Next _ _ (Permutation_refl _) E)) as (r & R). exists r. exact (iterates_next _ _ _ _ _ _ _ (Permutation_refl _) E R).
Qed.
End Slic.

Lemma distance_slic p f q c : 3 <= diam p -> distance p f q c = slic_distance (diam p) (wc p) f q c.
Proof.
  intro D. unfold distance, slic_distance. f_equal. unfold sum. cbn [map fold_right features]. assert (N : IZR (diam p) <> 0%R) by (apply not_0_IZR; lia). rewrite mult_IZR. cbv zeta. field. exact N.
Qed.
Lemma one_round_ext h w d n m v1 v2 e1 e2 c lab c' : (forall q a, (a < 5)%nat -> v1 q a = v2 q a) -> (forall q c, e1 q c = e2 q c) -> one_round h w d n m v1 e1 c lab c' -> one_round h w d n m v2 e2 c lab c'.
Proof.
  intros V E (A & B). split.
  - intros q Q. destruct (A q Q) as (pre & post & S & L & U & K). exists pre, post. rewrite <- E. split; [ exact S |]. split; [ exact L |]. split; intros j J; rewrite <- E; auto.
  - intros k a K Aa. rewrite (B k a K Aa). destruct (members h w lab k) as [|q l]; [ reflexivity |]. unfold average. f_equal. apply sum_ext. intros x _. now apply V.
Qed.
Lemma kmeans_ext h w d n m v1 v2 e1 e2 i : (forall q a, (a < 5)%nat -> v1 q a = v2 q a) -> (forall q c, e1 q c = e2 q c) -> forall c lab c', kmeans h w d n m v1 e1 i c lab c' -> kmeans h w d n m v2 e2 i c lab c'.
Proof.
  intros V E. induction i as [|[|i] IH]; intros c lab c' K; [ exact K | exact (one_round_ext _ _ _ _ _ _ _ _ _ _ _ _ V E K) |].
  destruct K as (l1 & c1 & K1 & K2). exists l1, c1. split; [ exact (one_round_ext _ _ _ _ _ _ _ _ _ _ _ _ V E K1) | exact (IH _ _ _ K2) ].
Qed.
Lemma attribute_features f q a : (a < 5)%nat -> attribute f q a = features f q a.
Proof. intro A. do 5 (destruct a as [|a]; [ reflexivity |]). lia. Qed.

(* several frames *)
Section Frames.
Context (p : params).
Hypothesis W : 0 < width p.
Hypothesis H : 0 < height p.
Hypothesis D : 3 <= diam p.
Hypothesis T : diam p * diam p <= max_threads p.
Lemma segment_kmeans f s r i : zeroed p s -> iterations p = S i -> segment p f s (Some r) -> exists c, starts (height p) (width p) (diam p) (per_row p) (per_col p) (attribute f) c /\
  kmeans (height p) (width p) (diam p) (per_row p) (per_col p) (attribute f) (distance p f) (S i) c (labels r) (clusters r).
Proof.
  intros Z E (_ & I). rewrite E in I. destruct (seeded p f W D T s Z) as (Z1 & O1 & S1). destruct (iterated p f W D T (S i) _ _ Z1 O1 I) as (_ & _ & _ & K). exists (clusters (init_clusters p f s)). split; [ exact S1 | exact K ].
Qed.
Lemma segment_zeroed f s r : zeroed p s -> segment p f s (Some r) -> zeroed p r.
Proof.
  intros Z (_ & I). destruct (seeded p f W D T s Z) as (Z1 & O1 & _). exact (proj1 (iterated p f W D T _ _ _ Z1 O1 I)).
Qed.
Lemma segments_zeroed fs s r : zeroed p s -> segments p fs s r -> zeroed p r.
Proof. intros Z S. induction S; [ exact Z |]. apply IHS. exact (segment_zeroed _ _ _ Z H0). Qed.
Lemma segment_alike f s1 s2 r1 r2 : zeroed p s1 -> zeroed p s2 -> segment p f s1 r1 -> segment p f s2 r2 -> alike p (iterations p) r1 r2.
Proof.
  intros Z1 Z2 (_ & I1) (_ & I2). destruct (seeded p f W D T s1 Z1) as (Y1 & O1 & _). destruct (seeded p f W D T s2 Z2) as (Y2 & O2 & _). refine (iterates_like p f W D T _ _ _ _ _ Y1 Y2 O1 O2 _ I1 I2).
  intros k a K A. unfold init_clusters. cbn [clusters]. replace ((0 <=? k) && (k <? spx p) && (a <? 5)%nat) with true; [ reflexivity |]. symmetry. rewrite !andb_true_iff, Z.leb_le, Z.ltb_lt, Nat.ltb_lt. lia.
Qed.
Lemma segment_runs f s B : zeroed p s -> (0 <= B)%R -> bounded p f B -> (12 * (B * B) + 8 * (wc p * wc p) < 10000000000)%R -> ~ segment p f s None /\ exists r, segment p f s (Some r).
Proof.
  intros Z B0 Bf L. destruct (seeded p f W D T s Z) as (Y & O & S). destruct (no_fault p f W D T B (iterations p) B0 Bf L _ Y O (boxed_seeds p f W H D T B _ Bf S)) as (N & r & R). split.
  - intros (_ & I). exact (N _ I eq_refl).
  - exists r. split; [ exact (it_launches p D T) | exact R ].
Qed.
Lemma kmeans_last h w d n m val dist i : forall c lab c', kmeans h w d n m val dist (S i) c lab c' -> exists c1, one_round h w d n m val dist c1 lab c'.
Proof. induction i as [|i IH]; intros c lab c' K; [ now exists c |]. destruct K as (l1 & c1 & _ & K). exact (IH _ _ _ K). Qed.
Lemma segment_local f s r q : zeroed p s -> (0 < iterations p)%nat -> segment p f s (Some r) -> In q (pixels p) -> exists e, In e (cells_around (per_col p) (per_row p) (cell (diam p) q)) /\ labels r q = number (per_row p) e.
Proof.
  intros Z I S Q. destruct (iterations p) as [|i] eqn:E; [ lia |]. destruct (segment_kmeans f s r i Z E S) as (c & _ & K). apply kmeans_last in K. destruct K as (c1 & K & _). specialize (K q Q). apply closest_in, in_map_iff in K. destruct K as (e & F & G). exists e. auto.
Qed.
End Frames.

(* large superpixels *)
Definition flat : frame := fun _ _ => 0%R.
Lemma assign_picks p f order s s' t : assign p f order s = Some s' -> In t order -> inside p (snd t) = true -> 0 <= pick p f (clusters s) t.
Proof. intros E I J. destruct (Z_lt_le_dec (pick p f (clusters s) t) 0) as [L|L]; [| exact L ]. exfalso. rewrite assign_none in E; [ discriminate |]. now exists t. Qed.
Lemma untouched p f q : (forall t, In t (threads p) -> snd t <> q) -> forall i s r, iterates p f i s (Some r) -> labels r q = labels s q.
Proof.
  intros N. induction i as [|i IH]; intros s r I; inversion I as [|? ? ? Hp Ha|? ? order s1 r1 Hp Ha Hi]; subst; [ reflexivity |].
  rewrite (IH _ _ Hi). cbn [update labels]. destruct (assign_some p f order s) as (s2 & E & _ & _ & L & _); [ intros t; apply (assign_picks p f order s s1 t Ha) |]. rewrite E in Ha. injection Ha as ->.
  apply L. intros t J _. apply N. exact (Permutation_in _ Hp J).
Qed.
Lemma flat_pick p c t k l : wc p = 0%R -> (forall j, In j (around p (fst t)) -> c j 0%nat = 0%R /\ c j 1%nat = 0%R /\ c j 2%nat = 0%R /\ (0 <= c j 3%nat)%R) -> around p (fst t) = k :: l -> pick p flat c t = k.
Proof.
  intros Wz Z E. unfold pick, nearest. assert (Dz : forall j, In j (around p (fst t)) -> distance p flat (snd t) (c j) = 0%R).
  { intros j J. destruct (Z j J) as (Z0 & Z1 & Z2 & _). unfold distance, flat. rewrite Z0, Z1, Z2, Wz. transitivity (sqrt 0); [ f_equal; ring | apply sqrt_0 ]. }
  rewrite E in *. cbn [fold_left snd].
  assert (F : forall l, (forall j, In j l -> distance p flat (snd t) (c j) = 0%R) -> fold_left (fun best k => if Req_EM_T (c k 3%nat) (-1) then best else let d := distance p flat (snd t) (c k) in if Rlt_dec d (snd best) then (k, d) else best) l (k, 0%R) = (k, 0%R)).
  { clear. induction l as [|j l IH]; intro A; [ reflexivity |]. cbn [fold_left]. rewrite (A j (or_introl eq_refl)). cbv zeta. destruct (Req_EM_T (c j 3%nat) (-1)); [ apply IH; intros; apply A; now right |].
    cbn [snd]. destruct (Rlt_dec 0 0) as [B|_]; [ lra |]. apply IH. intros; apply A; now right. }
  destruct (Req_EM_T (c k 3%nat) (-1)) as [B|_]; [ destruct (Z k (or_introl eq_refl)) as (_ & _ & _ & B'); lra |]. cbv zeta. rewrite (Dz k (or_introl eq_refl)). destruct (Rlt_dec 0 100000) as [_|B]; [| lra ].
  rewrite F; [ reflexivity |]. intros j J. apply Dz. now right.
Qed.
Definition big (d h : Z) : params := {| width := d; height := h; diam := d; wc := 0; iterations := 1; max_threads := 1024 |}.
Lemma big_run d h s : 3 <= d -> launches (big d h) = true -> (forall t, In t (threads (big d h)) -> exists k l, around (big d h) (fst t) = k :: l /\ forall j, In j (k :: l) -> 0 <= j < spx (big d h)) ->
  exists r, segment (big d h) flat s (Some r).
Proof.
  intros D Ln A. destruct (assign_some (big d h) flat (threads (big d h)) (init_clusters (big d h) flat s)) as (s' & E & _).
  - intros t I _. destruct (A t I) as (k & l & E & R). rewrite (flat_pick _ _ _ k l); [ exact (proj1 (R k (or_introl eq_refl))) | reflexivity | | exact E ]. rewrite E. intros j J. specialize (R j J).
    unfold init_clusters. cbn [clusters]. replace ((0 <=? j) && (j <? spx (big d h))) with true by (symmetry; rewrite andb_true_iff, Z.leb_le, Z.ltb_lt; lia). cbn [andb Nat.ltb Nat.leb seed flat]. unfold flat. repeat split.
    apply IZR_le. unfold seed_col. cbn [width diam big]. assert (P : per_row (big d h) = 1). { unfold per_row, div_up. cbn [width diam big]. rewrite Z.mod_same, Z.div_same by lia. reflexivity. } rewrite P, Z.mod_1_r. assert (0 <= d / 2) by (apply Z.div_pos; lia). lia.
  - exists (update (big d h) s'). split; [ exact Ln |]. cbn [iterations big]. eapply iterates_next; [ apply Permutation_refl | exact E | constructor ].
Qed.
Lemma big90_threads t : In t (threads (big 90 90)) -> fst t = (0, 0) /\ fst (snd t) < 88.
Proof.
  unfold threads. rewrite in_map_iff. intros ([[[y x] z] [ty tx]] & <- & I). apply in_prod_iff in I. destruct I as (I & J). apply in_prod_iff in I. destruct I as (I & K). apply in_grid in I, J. apply in_zrange in K. cbn [fst snd] in *.
  change (per_col (big 90 90)) with 1 in *. change (per_row (big 90 90)) with 1 in *. change (block_height (big 90 90)) with 11 in *. change (layers (big 90 90)) with 8 in *. unfold place. change (block_height (big 90 90)) with 11. change (layers (big 90 90)) with 8. cbn [diam big fst snd] in *. split; [ f_equal; lia | lia ].
Qed.
Lemma big90_run s : exists r, segment (big 90 90) flat s (Some r).
Proof.
  apply big_run; [ lia | reflexivity |]. intros t I. destruct (big90_threads t I) as (-> & _). exists 0, []. split; [ reflexivity |]. intros j [<-|[]]. change (spx (big 90 90)) with 1. lia.
Qed.
Lemma big33_threads t : In t (threads (big 33 264)) <-> exists y z ty tx, 0 <= y < 8 /\ 0 <= z < 2 /\ 0 <= ty < 31 /\ 0 <= tx < 33 /\ t = ((y, 0), (62 * y + 31 * z + ty, tx)).
Proof.
  unfold threads. rewrite in_map_iff. split.
  - intros ([[[y x] z] [ty tx]] & <- & I). apply in_prod_iff in I. destruct I as (I & J). apply in_prod_iff in I. destruct I as (I & K). apply in_grid in I, J. apply in_zrange in K. cbn [fst snd] in *.
    change (per_col (big 33 264)) with 8 in *. change (per_row (big 33 264)) with 1 in *. change (block_height (big 33 264)) with 31 in *. change (layers (big 33 264)) with 2 in *. cbn [diam big] in *.
    exists y, z, ty, tx. repeat (split; [ lia |]). assert (x = 0) by lia. subst x. unfold place. change (block_height (big 33 264)) with 31. change (layers (big 33 264)) with 2. cbn [diam big]. f_equal. f_equal; lia.
  - intros (y & z & ty & tx & Y & Z & TY & TX & ->). exists (y, 0, z, (ty, tx)). split.
    + unfold place. change (block_height (big 33 264)) with 31. change (layers (big 33 264)) with 2. cbn [diam big]. f_equal. f_equal; lia.
    + apply in_prod; [ apply in_prod |]; [ apply in_grid | apply in_zrange | apply in_grid ]; cbn [fst snd]; change (per_col (big 33 264)) with 8; change (per_row (big 33 264)) with 1; change (block_height (big 33 264)) with 31; change (layers (big 33 264)) with 2; cbn [diam big]; lia.
Qed.
Lemma big33_run s : exists r, segment (big 33 264) flat s (Some r).
Proof.
  apply big_run; [ lia | reflexivity |]. intros t I. apply big33_threads in I. destruct I as (y & z & ty & tx & Y & _ & _ & _ & ->). cbn [fst]. change (spx (big 33 264)) with 8.
  assert (C : y = 0 \/ y = 1 \/ y = 2 \/ y = 3 \/ y = 4 \/ y = 5 \/ y = 6 \/ y = 7) by lia. clear Y.
  repeat destruct C as [->|C]; try subst y; (eexists; eexists; split; [ reflexivity | intros j J; cbn in J; lia ]).
Qed.
Lemma around_range_any c k p t : nearest p c k t = (-1, 100000%R) \/ In (fst (nearest p c k t)) (around p (fst t)).
Proof.
  unfold nearest. assert (G : forall l e, let r := fold_left (fun best j => if Req_EM_T (k j 3%nat) (-1) then best else let d := distance p c (snd t) (k j) in if Rlt_dec d (snd best) then (j, d) else best) l e in r = e \/ In (fst r) l).
  { induction l as [|j l IH]; intro e; [ now left |]. cbv zeta. cbn [fold_left]. destruct (Req_EM_T (k j 3%nat) (-1)); [ destruct (IH e); [ now left | right; now right ] |]. cbv zeta in *. destruct (Rlt_dec _ _); [ destruct (IH (j, distance p c (snd t) (k j))) as [E|E]; [ rewrite E; right; now left | right; now right ] | destruct (IH e); [ now left | right; now right ] ]. }
  apply G.
Qed.
Lemma big33_far f s r : segment (big 33 264) f s (Some r) -> 3 <= labels r (248, 0) <= 5.
Proof.
  intros (_ & I). cbn [iterations big] in I. inversion I as [|? ? ? Hp Ha|? ? order s1 r1 Hp Ha Hi]; subst. inversion Hi; subst. cbn [update labels].
  destruct (assign_some _ f order _ (fun t => assign_picks _ f order _ s1 t Ha)) as (s2 & E & _ & _ & _ & L). rewrite E in Ha. injection Ha as ->.
  assert (K : In ((4, 0), (248, 0)) order) by (apply (Permutation_in _ (Permutation_sym Hp)), big33_threads; exists 4, 0, 0, 0; repeat (split; [ lia |]); reflexivity).
  rewrite (L (248, 0) (pick (big 33 264) f (clusters (init_clusters (big 33 264) f s)) ((4, 0), (248, 0)))).
  - assert (P := assign_picks _ f order _ s1 _ E K eq_refl). unfold pick in *. destruct (around_range_any f (clusters (init_clusters (big 33 264) f s)) (big 33 264) ((4, 0), (248, 0))) as [F|F]; [ rewrite F in P; cbn [fst] in P; lia |]. change (around (big 33 264) (fst ((4, 0), (248, 0)))) with [3; 4; 5] in F. cbn [In] in F. lia.
  - intros t J _ Q. apply (Permutation_in _ Hp), big33_threads in J. destruct J as (y & z & ty & tx & Y & Z & TY & TX & ->). cbn [snd] in Q. apply pair_equal_spec in Q. destruct Q as (Q1 & Q2). assert (E4 : y = 4) by lia. clear Z. subst y. now rewrite Q1, Q2.
  - exists ((4, 0), (248, 0)). auto.
Qed.
Definition heavy : params := {| width := 3; height := 3; diam := 3; wc := 300000; iterations := 1; max_threads := 1024 |}.
Lemma heavy_fault s r : zeroed heavy s -> segment heavy flat s r -> r = None.
Proof.
  intros Z (_ & I). cbn [iterations heavy] in I. inversion I as [|? ? ? Hp Ha|? ? order s1 r1 Hp Ha Hi]; subst; [ reflexivity |]. exfalso.
  assert (W : 0 < width heavy) by reflexivity. assert (H : 0 < height heavy) by reflexivity. assert (D : 3 <= diam heavy) by (cbn; lia). assert (T : diam heavy * diam heavy <= max_threads heavy) by (cbn; lia).
  destruct (seeded heavy flat W D T s Z) as (_ & O & S). assert (Q : In (0, 0) (pixels heavy)) by (apply in_grid; cbn; lia).
  destruct (thread_of heavy D T (0, 0) Q) as (A & B). assert (P := assign_picks heavy flat order _ s1 _ Ha (Permutation_in _ (Permutation_sym Hp) A) B).
  destruct (pick_spec heavy flat W D T _ (cell (diam heavy) (0, 0), (0, 0)) O) as [(F & _)|(_ & F)]; [ lia |].
  assert (J := closest_in _ _ _ _ F). change (around heavy (fst (cell (diam heavy) (0, 0), (0, 0)))) with [0] in J. destruct J as [J|[]]. destruct F as (_ & _ & _ & F & _). rewrite <- J in F. cbn [snd] in F.
  assert (S3 : clusters (init_clusters heavy flat s) 0 3%nat = 1%R) by exact (S 0 0 ltac:(cbn; lia) ltac:(cbn; lia) 3%nat ltac:(lia)). assert (S4 : clusters (init_clusters heavy flat s) 0 4%nat = 1%R) by exact (S 0 0 ltac:(cbn; lia) ltac:(cbn; lia) 4%nat ltac:(lia)).
  assert (S0 : clusters (init_clusters heavy flat s) 0 0%nat = 0%R) by exact (S 0 0 ltac:(cbn; lia) ltac:(cbn; lia) 0%nat ltac:(lia)). assert (S1 : clusters (init_clusters heavy flat s) 0 1%nat = 0%R) by exact (S 0 0 ltac:(cbn; lia) ltac:(cbn; lia) 1%nat ltac:(lia)). assert (S2 : clusters (init_clusters heavy flat s) 0 2%nat = 0%R) by exact (S 0 0 ltac:(cbn; lia) ltac:(cbn; lia) 2%nat ltac:(lia)).
  unfold distance in F. rewrite S0, S1, S2, S3, S4 in F. unfold flat in F. cbn [fst snd diam wc heavy] in F. change (3 * 3) with 9 in F.
  assert (G : (100000 <= sqrt ((0 - 0) * (0 - 0) + (0 - 0) * (0 - 0) + (0 - 0) * (0 - 0) + ((0 - 1) * (0 - 1) + (0 - 1) * (0 - 1)) / 9 * (300000 * 300000)))%R).
  { rewrite <- (sqrt_square 100000) by lra. apply sqrt_le_1_alt. lra. }
  lra.
Qed.
Lemma heavy_runs s : exists r, segment heavy flat s r.
Proof.
  destruct (assign heavy flat (threads heavy) (init_clusters heavy flat s)) as [s'|] eqn:E.
  - exists (Some (update heavy s')). split; [ reflexivity |]. eapply iterates_next; [ apply Permutation_refl | exact E | constructor ].
  - exists None. split; [ reflexivity |]. eapply iterates_fault; [ apply Permutation_refl | exact E ].
Qed.

(* colours *)
Open Scope R_scope.
Lemma third_cube v : 0 < v -> 0 < third v /\ third v * third v * third v = v.
Proof.
  intro V. unfold third. destruct (Rle_dec v 0); [ lra |]. split; [ apply exp_pos |]. rewrite <- !exp_plus. replace (ln v / 3 + ln v / 3 + ln v / 3) with (ln v) by field. now apply exp_ln.
Qed.
Lemma third_nonneg v : 0 <= third v.
Proof. unfold third. destruct (Rle_dec v 0); [ lra | left; apply exp_pos ]. Qed.
Lemma third_le v : v <= 1 -> third v <= 1.
Proof.
  intro V. destruct (Rle_dec v 0) as [L|L]; [ unfold third; destruct (Rle_dec v 0); lra |]. destruct (third_cube v ltac:(lra)) as (P & C). destruct (Rle_dec (third v) 1) as [G|G]; [ exact G |]. exfalso.
  assert (1 < third v * third v) by nra. assert (1 < third v * third v * third v) by nra. lra.
Qed.
Lemma cube_inj a b : 0 < a -> 0 < b -> a * a * a = b * b * b -> a = b.
Proof. intros A B E. destruct (Rtotal_order a b) as [L|[L|L]]; [| exact L |]; exfalso; assert (0 < (a * a + a * b + b * b)) by nra; assert ((a - b) * (a * a + a * b + b * b) = 0) by nra; nra. Qed.
Lemma third_above v : 0.008856 < v -> 0.2 < third v.
Proof. intro V. destruct (third_cube v ltac:(lra)) as (P & C). destruct (Rlt_dec 0.2 (third v)) as [L|L]; [ exact L |]. exfalso. assert (A := Rmult_le_compat (third v) 0.2 (third v) 0.2 ltac:(lra) ltac:(lra) ltac:(lra) ltac:(lra)). assert (B := Rmult_le_compat (third v * third v) (0.2 * 0.2) (third v) 0.2 ltac:(nra) ltac:(lra) ltac:(lra) ltac:(lra)). lra. Qed.
Lemma model_x r g b : (r * 0.412453 + g * 0.357580 + b * 0.180423) / 0.950456 = rel_x r g b. Proof. unfold rel_x. f_equal. ring. Qed.
Lemma model_y r g b : r * 0.212671 + g * 0.715160 + b * 0.072169 = rel_y r g b. Proof. unfold rel_y. ring. Qed.
Lemma model_z r g b : (r * 0.019334 + g * 0.119193 + b * 0.950227) / 1.088754 = rel_z r g b. Proof. unfold rel_z. f_equal. ring. Qed.
Lemma rel_range r g b : 0 <= r <= 1 -> 0 <= g <= 1 -> 0 <= b <= 1 -> 0 <= rel_x r g b <= 1 /\ 0 <= rel_y r g b <= 1 /\ 0 <= rel_z r g b <= 1.
Proof. intros R G B. unfold rel_x, rel_y, rel_z. lra. Qed.
Definition curve (v : R) : R := if Rlt_dec 0.008856 v then third v else 7.787 * v + 0.13793.
Lemma curve_cie v : cie v (curve v).
Proof. unfold cie, curve. destruct (Rlt_dec 0.008856 v); [ apply third_cube; lra | reflexivity ]. Qed.
Lemma cie_curve v f : cie v f -> f = curve v.
Proof. unfold cie, curve. destruct (Rlt_dec 0.008856 v) as [L|L]; [| auto ]. intros (P & C). destruct (third_cube v ltac:(lra)) as (P2 & C2). apply cube_inj; [ exact P | exact P2 | congruence ]. Qed.
Lemma lab_eq r g b : lab r g b = (116 * third (rel_y r g b) - 16, 500 * (curve (rel_x r g b) - curve (rel_y r g b)), 200 * (curve (rel_y r g b) - (if Rlt_dec 0.008856 (rel_z r g b) then third (rel_z r g b) * third (rel_z r g b) else curve (rel_z r g b)))) \/ rel_y r g b < 0.
Proof.
  destruct (Rlt_dec (rel_y r g b) 0) as [N|N]; [ now right | left ]. unfold lab. cbv zeta. rewrite model_x, model_y, model_z. unfold curve.
  destruct (Rlt_dec 0.008856 (if Rlt_dec 0.008856 (rel_y r g b) then third (rel_y r g b) else 7.787 * rel_y r g b + 0.13793)) as [L|L].
  - f_equal; [ f_equal; ring |]. destruct (Rlt_dec 0.008856 (rel_z r g b)) as [Z|Z]; [| ring ]. destruct (third_cube (rel_z r g b) ltac:(lra)) as (P & C). replace (rel_z r g b / third (rel_z r g b)) with (third (rel_z r g b) * third (rel_z r g b)); [ ring |]. rewrite <- C at 3. field. lra.
  - exfalso. apply L. destruct (Rlt_dec 0.008856 (rel_y r g b)) as [Y|Y]; [ assert (A := third_above _ Y) |]; lra.
Qed.
Lemma curve_range v : 0 <= v <= 1 -> 0 <= curve v <= 1.
Proof. intro V. unfold curve. destruct (Rlt_dec 0.008856 v) as [L|L]; [ split; [ apply third_nonneg | apply third_le; lra ] | lra ]. Qed.
Lemma lab_bounds r g b l a c : 0 <= r <= 1 -> 0 <= g <= 1 -> 0 <= b <= 1 -> lab r g b = (l, a, c) -> -16 <= l <= 100 /\ -500 <= a <= 500 /\ -200 <= c <= 200.
Proof.
  intros Hr Hg Hb E. destruct (rel_range r g b Hr Hg Hb) as (X & Y & Z). destruct (lab_eq r g b) as [F|F]; [| lra ]. rewrite F in E. injection E as <- <- <-.
  assert (CX := curve_range _ X). assert (CY := curve_range _ Y). assert (CZ := curve_range _ Z). assert (T1 := third_nonneg (rel_y r g b)). assert (T2 := third_le (rel_y r g b) ltac:(lra)). split; [ lra |]. split; [ lra |].
  destruct (Rlt_dec 0.008856 (rel_z r g b)) as [L|L]; [| lra ]. assert (T3 := third_nonneg (rel_z r g b)). assert (T4 := third_le (rel_z r g b) ltac:(lra)). assert (0 <= third (rel_z r g b) * third (rel_z r g b) <= 1) by nra. lra.
Qed.
Lemma lab_right r g b l a c : 0 <= r <= 1 -> 0 <= g <= 1 -> 0 <= b <= 1 -> lab r g b = (l, a, c) -> forall l' a' c', is_lab (rel_x r g b) (rel_y r g b) (rel_z r g b) l' a' c' ->
  a = a' /\ (0.008856 < rel_y r g b -> l = l') /\ (~ 0.008856 < rel_z r g b -> c = c').
Proof.
  intros Hr Hg Hb E l' a' c' (Lg & fx & fy & fz & Fx & Fy & Fz & Ea & Ec). destruct (rel_range r g b Hr Hg Hb) as (X & Y & Z). destruct (lab_eq r g b) as [F|F]; [| lra ]. rewrite F in E. injection E as <- <- <-.
  apply cie_curve in Fx, Fy, Fz. subst. split; [ reflexivity |]. split.
  - intro L. unfold lightness in Lg. destruct (Rlt_dec 0.008856 (rel_y r g b)) as [_|C]; [| lra ]. destruct Lg as (t & P & C & ->). destruct (third_cube (rel_y r g b) ltac:(lra)) as (P2 & C2). rewrite (cube_inj t (third (rel_y r g b))); [ reflexivity | exact P | exact P2 | congruence ].
  - intro L. destruct (Rlt_dec 0.008856 (rel_z r g b)); [ lra | reflexivity ].
Qed.
Lemma grey_rel v : rel_x v v v = v /\ rel_y v v v = v /\ rel_z v v v = v. Proof. unfold rel_x, rel_y, rel_z. repeat split; lra. Qed.
Lemma lab_grey v : 0.008856 < v < 1 -> exists l c, lab v v v = (l, 0, c) /\ 0 < c /\ exists l', is_lab v v v l' 0 0.
Proof.
  intro V. destruct (grey_rel v) as (X & Y & Z). destruct (lab_eq v v v) as [F|F]; [| lra ]. rewrite X, Y, Z in F. exists (116 * third v - 16), (200 * (curve v - third v * third v)).
  destruct (third_cube v ltac:(lra)) as (P & C). split; [| split ].
  - rewrite F. destruct (Rlt_dec 0.008856 v); [| lra ]. f_equal. f_equal. ring.
  - unfold curve. destruct (Rlt_dec 0.008856 v); [| lra ]. assert (L : third v < 1). { destruct (Rlt_dec (third v) 1) as [L|L]; [ exact L |]. exfalso. assert (1 <= third v * third v) by nra. assert (1 <= third v * third v * third v) by nra. lra. } nra.
  - exists (116 * third v - 16). split; [ unfold lightness; destruct (Rlt_dec 0.008856 v); [| lra ]; exists (third v); auto |]. exists (curve v), (curve v), (curve v). repeat split; try apply curve_cie; ring.
Qed.
Lemma lab_black l a c : lab 0 0 0 = (l, a, c) -> l = -16.
Proof.
  intro E. destruct (grey_rel 0) as (X & Y & Z). destruct (lab_eq 0 0 0) as [F|F]; [| lra ]. rewrite X, Y, Z in F. rewrite F in E. injection E as <- _ _. unfold third. destruct (Rle_dec 0 0); lra.
Qed.
Lemma is_lab_black : is_lab 0 0 0 0 0 0.
Proof.
  split; [ unfold lightness; destruct (Rlt_dec 0.008856 0); lra |]. exists (curve 0), (curve 0), (curve 0). repeat split; try apply curve_cie; ring.
Qed.
Lemma colours_bounded p im : (forall q, let '(r, g, b) := im q in 0 <= r <= 1 /\ 0 <= g <= 1 /\ 0 <= b <= 1) -> bounded p (colours im) 500.
Proof.
  intros I q a _ A. unfold colours. specialize (I q). destruct (im q) as [[r g] b]. destruct (lab r g b) as [[l x] y] eqn:E. destruct I as (Hr & Hg & Hb). destruct (lab_bounds r g b l x y Hr Hg Hb E) as (B1 & B2 & B3).
  destruct a as [|[|a]]; lra.
Qed.

Lemma thread_column p t : (3 <= diam p)%Z -> In t (threads p) -> (snd (snd t) / diam p)%Z = snd (fst t).
Proof.
  intros D I. unfold threads in I. apply in_map_iff in I. destruct I as ([[[b0 b1] b2] [t0 t1]] & <- & I). apply in_prod_iff in I. destruct I as (_ & I). apply in_grid in I. cbn [fst snd] in I.
  unfold place. cbn [fst snd]. rewrite Z.div_add_l by lia. rewrite Z.div_small by lia. lia.
Qed.
