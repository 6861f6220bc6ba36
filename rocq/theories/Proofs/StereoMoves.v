(* Proofs about Model.StereoMoves. *)
From Coq Require Import ZArith List Bool Lia Permutation.
From Verif Require Import Lib.Grid Model.FusionTerms Spec.FusionTerms Proofs.FusionTerms Model.StereoMoves Spec.StereoMoves.
Import ListNotations.
Local Open Scope Z_scope.

Lemma step_div v : v / disp_step = v. Proof. apply Z.div_1_r. Qed.
Lemma step_mod v : v mod disp_step = 0. Proof. apply Z.mod_1_r. Qed.
Lemma step_mul v : v * disp_step = v. Proof. apply Z.mul_1_r. Qed.

Lemma flat_inj w r r' k k' : 0 <= k < w -> 0 <= k' < w -> r * w + k = r' * w + k' -> r = r' /\ k = k'.
Proof. intros H H' E. assert (r = r') by nia. subst. lia. Qed.
Lemma flat_bound w h r k : 0 <= r < h -> 0 <= k < w -> 0 <= r * w + k < h * w.
Proof. nia. Qed.

Lemma count_ext {A} (p q : A -> bool) l : (forall x, In x l -> p x = q x) -> count p l = count q l.
Proof. intro H. unfold count. do 2 f_equal. apply filter_ext_in. exact H. Qed.
Lemma count_cons {A} (p : A -> bool) a l : count p (a :: l) = (if p a then 1 else 0) + count p l.
Proof. unfold count. cbn [filter]. destruct (p a); cbn [length]; lia. Qed.
Lemma count_nonneg {A} (p : A -> bool) l : 0 <= count p l.
Proof. unfold count. lia. Qed.
Lemma count_total {A} (p : A -> bool) l : count p l = total (map (fun x => if p x then 1 else 0) l).
Proof. induction l; [ reflexivity |]. rewrite count_cons, IHl. reflexivity. Qed.
Lemma count_change (p q : Z -> bool) x0 l : NoDup l -> In x0 l -> (forall x, x <> x0 -> p x = q x) ->
  count p l = count q l + (if p x0 then 1 else 0) - (if q x0 then 1 else 0).
Proof.
  intros N I H. induction N as [|a l Na N IH]; [ destruct I |]. rewrite !count_cons. destruct I as [->|I].
  - rewrite (count_ext p q l); [ lia |]. intros x Ix. apply H. intro; subst; contradiction.
  - rewrite IH by exact I. rewrite (H a) by (intro; subst; contradiction). lia.
Qed.

Section Setup.
  Variable s : setup.
  Hypothesis S0 : sound s.
  Let R0 : 0 < rows s. Proof. apply S0. Qed.
  Let C0 : 0 < cols s. Proof. apply S0. Qed.
  Let M0 : 0 <= mind s. Proof. apply S0. Qed.
  Let N0 : 1 <= nreal s <= 253. Proof. apply S0. Qed.

  Lemma maxd_is : maxd s = mind s + nreal s - 1. Proof. unfold maxd. rewrite step_mul. lia. Qed.
  Lemma acols_is : assoc_cols s = cols s + mind s + nreal s - 1. Proof. unfold assoc_cols. rewrite step_div, maxd_is. lia. Qed.
  Lemma lists_is : list_size s = nreal s. Proof. apply step_mul. Qed.
  Lemma cell_is row c : cell s row c = row * assoc_cols s + (c + map_offset s). Proof. unfold cell. now rewrite step_div. Qed.
  Definition column (c : Z) : Prop := 0 <= c + map_offset s < assoc_cols s.
  Lemma column_reachable c : column c <-> reachable_column s c.
  Proof. unfold column, reachable_column, map_offset. rewrite acols_is, maxd_is. destruct (second s); lia. Qed.

  Lemma target_column x l : 0 <= x < cols s -> 0 <= l < nreal s -> column (target s x (mind s + l)).
  Proof. unfold column, target, map_offset. rewrite acols_is, maxd_is. destruct (second s); lia. Qed.
  Lemma target_inj_x x y d : target s x d = target s y d -> x = y.
  Proof. unfold target. destruct (second s); lia. Qed.
  Lemma target_inj_d x d e : target s x d = target s x e -> d = e.
  Proof. unfold target. destruct (second s); lia. Qed.

  Lemma offset_col_is x l : 0 <= x < cols s -> 0 <= l < nreal s -> offset_col s x l = Some (target s x (mind s + l)).
  Proof.
    intros Hx Hl. unfold offset_col, offset_value, real_label, nlabels, ensure, target. rewrite maxd_is, step_mul.
    destruct (0 <=? x) eqn:A1; [| lia ]. destruct (x <? cols s) eqn:A2; [| lia ]. destruct (l <? nreal s) eqn:A3; [| lia ]. destruct (0 <=? l) eqn:A4; [| lia ]. destruct (l <? nreal s + 2) eqn:A5; [| lia ]. cbn [andb obind].
    destruct (mind s <=? mind s + l) eqn:A6; [| lia ]. destruct (mind s + l <=? mind s + nreal s - 1) eqn:A7; [| lia ]. cbn [andb obind]. f_equal. destruct (second s); lia.
  Qed.
  Lemma assoc_range_is x l : 0 <= l < nreal s -> assoc_range s x (target s x (mind s + l)) = true.
  Proof. intro H. unfold assoc_range, target. rewrite maxd_is. destruct (second s); cbn [orb negb andb]; rewrite ?andb_true_r, andb_true_iff, !Z.leb_le; lia. Qed.
  Lemma cell_in row c : 0 <= row < rows s -> column c -> in_counts s (cell s row c) = true.
  Proof. intros Hr Hc. unfold in_counts. rewrite cell_is, andb_true_iff, Z.leb_le, Z.ltb_lt. unfold column in Hc. pose proof (flat_bound (assoc_cols s) (rows s) row (c + map_offset s) Hr Hc). lia. Qed.
  Lemma entry_in row c l : 0 <= row < rows s -> column c -> 0 <= l < nreal s -> in_lists s (cell s row c * list_size s + l) = true.
  Proof.
    intros Hr Hc Hl. unfold in_lists. rewrite lists_is, andb_true_iff, Z.leb_le, Z.ltb_lt, cell_is. unfold column in Hc. pose proof (flat_bound (assoc_cols s) (rows s) row (c + map_offset s) Hr Hc).
    pose proof (flat_bound (nreal s) (rows s * assoc_cols s) (row * assoc_cols s + (c + map_offset s)) l H Hl). lia.
  Qed.
  Lemma cell_inj row c row' c' : column c -> column c' -> cell s row c = cell s row' c' -> row = row' /\ c = c'.
  Proof. rewrite !cell_is. intros H H' E. destruct (flat_inj _ _ _ _ _ H H' E). lia. Qed.
  Lemma entry_inj row c l row' c' l' : column c -> column c' -> 0 <= l < nreal s -> 0 <= l' < nreal s ->
    cell s row c * list_size s + l = cell s row' c' * list_size s + l' -> row = row' /\ c = c' /\ l = l'.
  Proof. rewrite lists_is. intros H H' Hl Hl' E. destruct (flat_inj _ _ _ _ _ Hl Hl' E) as [E1 ->]. destruct (cell_inj _ _ _ _ H H' E1) as [-> ->]. auto. Qed.
  Lemma get_count_is a row c : 0 <= row < rows s -> column c -> get_count s a row c = Some (cnt a (cell s row c)).
  Proof.
    intros Hr Hc. unfold get_count. rewrite cell_in by assumption. apply column_reachable in Hc. unfold reachable_column in Hc. unfold ensure. destruct (0 <=? row) eqn:A1; [| lia ]. destruct (row <? rows s) eqn:A2; [| lia ]. cbn [andb].
    destruct (second s); cbn [orb negb].
    - destruct (0 <=? c) eqn:A3; [| lia ]. destruct (c <? cols s + maxd s) eqn:A4; [| lia ]. reflexivity.
    - destruct (- maxd s <=? c) eqn:A3; [| lia ]. destruct (c <? cols s) eqn:A4; [| lia ]. reflexivity.
  Qed.

  (* the place of a pixel in the flat map *)
  Definition at_ (row x : Z) : Z := row * cols s + x.
  Definition pixel (row x : Z) : Prop := 0 <= row < rows s /\ 0 <= x < cols s /\ inside s (at_ row x) = true.
  Lemma in_pixels i : In i (pixels s) <-> 0 <= i < rows s * cols s /\ inside s i = true.
  Proof. unfold pixels. rewrite filter_In, in_zrange. intuition lia. Qed.
  Lemma pixel_of i : In i (pixels s) -> pixel (row_of s i) (col_of s i) /\ at_ (row_of s i) (col_of s i) = i.
  Proof.
    intro I. apply in_pixels in I. destruct I as [H I]. unfold row_of, col_of. pose proof (Z.div_mod i (cols s) ltac:(lia)) as D. pose proof (Z.mod_pos_bound i (cols s) C0) as B.
    assert (E : at_ (i / cols s) (i mod cols s) = i) by (unfold at_; lia). split; [| exact E ]. unfold pixel. rewrite E. split; [| tauto ]. split; [ apply Z.div_pos; lia | apply Z.div_lt_upper_bound; lia ].
  Qed.

  (* the invariant of the buffers *)
  Definition origin (l : Z -> Z) (row c k : Z) : Z :=
    let x := if second s then c - (mind s + k) else c + (mind s + k) in
    if (0 <=? x) && (x <? cols s) && inside s (at_ row x) && (l (at_ row x) =? k) then sign16 x else -1.
  Definition inv (l : Z -> Z) (a : assoc) : Prop := forall row c, 0 <= row < rows s -> column c ->
    cnt a (cell s row c) = matched s l row c /\ forall k, 0 <= k < nreal s -> lst a (cell s row c * list_size s + k) = origin l row c k.

  Lemma hits_real l row c x : hits s l row c x = true <-> inside s (at_ row x) = true /\ 0 <= l (at_ row x) < nreal s /\ target s x (mind s + l (at_ row x)) = c.
  Proof. unfold hits, at_. rewrite !andb_true_iff, Z.leb_le, Z.ltb_lt, Z.eqb_eq. intuition lia. Qed.
  Lemma matched_other l row c row0 x0 v : 0 <= x0 < cols s -> row <> row0 -> matched s (upd l (at_ row0 x0) v) row c = matched s l row c.
  Proof.
    intros H N. apply count_ext. intros x I. apply in_zrange in I. unfold hits, upd. assert (E : row * cols s + x =? at_ row0 x0 = false).
    { apply Z.eqb_neq. unfold at_. intro E. apply N. apply (flat_inj (cols s) row row0 x x0); [ lia | exact H | exact E ]. }
    now rewrite E.
  Qed.
  Lemma matched_change l row c x0 v : 0 <= x0 < cols s ->
    matched s (upd l (at_ row x0) v) row c = matched s l row c + (if hits s (upd l (at_ row x0) v) row c x0 then 1 else 0) - (if hits s l row c x0 then 1 else 0).
  Proof.
    intro H. unfold matched. apply count_change; [ apply nodup_zseq | apply in_zrange; lia |]. intros x N. unfold hits, upd. assert (E : row * cols s + x =? at_ row x0 = false) by (apply Z.eqb_neq; unfold at_; lia). now rewrite E.
  Qed.
  Lemma upd_same l i v : upd l i v i = v. Proof. unfold upd. now rewrite Z.eqb_refl. Qed.
  Lemma upd_other l i v j : j <> i -> upd l i v j = l j. Proof. intro H. unfold upd. destruct (j =? i) eqn:E; [ apply Z.eqb_eq in E; contradiction | reflexivity ]. Qed.

  Lemma matched_bound l row c : 0 <= matched s l row c <= nreal s.
  Proof.
    split; [ apply count_nonneg |]. unfold matched, count. rewrite <- (map_length (fun x => l (at_ row x))). 
    assert (B : (length (map (fun x => l (at_ row x)) (filter (hits s l row c) (zrange 0 (cols s)))) <= length (zrange 0 (nreal s)))%nat).
    { apply NoDup_incl_length.
      - assert (N : NoDup (filter (hits s l row c) (zrange 0 (cols s)))) by apply NoDup_filter, nodup_zseq.
        assert (A : forall x, In x (filter (hits s l row c) (zrange 0 (cols s))) -> hits s l row c x = true) by (intros x I; apply filter_In in I; tauto).
        induction N as [|x m Nx N IH]; cbn [map]; constructor.
        + intro I. apply in_map_iff in I. destruct I as (y & E & I). pose proof (A x (or_introl eq_refl)) as Hx. pose proof (A y (or_intror I)) as Hy. apply hits_real in Hx, Hy. destruct Hx as (_ & _ & Hx), Hy as (_ & _ & Hy). rewrite E in Hy. rewrite <- Hy in Hx. apply target_inj_x in Hx. subst y. contradiction.
        + apply IH. intros; apply A; now right.
      - intros v I. apply in_map_iff in I. destruct I as (x & <- & I). apply filter_In in I. destruct I as [_ I]. apply hits_real in I. apply in_zrange. lia. }
    unfold zrange at 2 in B. rewrite zseq_length in B. lia.
  Qed.

  Lemma origin_other l i v row c k : (forall x, 0 <= x < cols s -> at_ row x = i -> target s x (mind s + k) = c -> (l i =? k) = (v =? k)) -> origin (upd l i v) row c k = origin l row c k.
  Proof.
    intro H. unfold origin. set (x := if second s then c - (mind s + k) else c + (mind s + k)). assert (T : target s x (mind s + k) = c) by (unfold target, x; destruct (second s); lia).
    destruct (0 <=? x) eqn:A1; [| reflexivity ]. destruct (x <? cols s) eqn:A2; [| reflexivity ]. cbn [andb]. destruct (Z.eq_dec (at_ row x) i) as [E|E]; [| now rewrite upd_other ].
    rewrite E, upd_same, <- (H x); [ reflexivity | lia | exact E | exact T ].
  Qed.
  Lemma origin_at l row x k : 0 <= x < cols s -> inside s (at_ row x) = true -> origin l row (target s x (mind s + k)) k = if l (at_ row x) =? k then sign16 x else -1.
  Proof.
    intros H I. unfold origin. set (y := if second s then target s x (mind s + k) - (mind s + k) else target s x (mind s + k) + (mind s + k)). assert (E : y = x) by (unfold y, target; destruct (second s); lia).
    rewrite E, I. destruct (0 <=? x) eqn:A1; [| lia ]. destruct (x <? cols s) eqn:A2; [| lia ]. reflexivity.
  Qed.

  Lemma remove_ok l a row x k : pixel row x -> l (at_ row x) = k -> 0 <= k < nreal s -> inv l a ->
    exists a', remove_assoc s a row x k = Some a' /\ inv (upd l (at_ row x) (dontcare s)) a'.
  Proof.
    intros (Hr & Hx & Hi) El Hk I. pose proof (target_column x k Hx Hk) as Hc. set (c := target s x (mind s + k)) in *. destruct (I row c Hr Hc) as [Ic Il].
    assert (Hh : hits s l row c x = true) by (apply hits_real; rewrite El; auto).
    assert (Pos : 1 <= matched s l row c). { pose proof (matched_change l row c x (dontcare s) Hx) as E. rewrite Hh in E. pose proof (matched_bound (upd l (at_ row x) (dontcare s)) row c). destruct (hits s (upd l (at_ row x) (dontcare s)) row c x) eqn:E1; [| lia ]. apply hits_real in E1. rewrite upd_same in E1. unfold dontcare in E1. lia. }
    pose proof (matched_bound l row c) as Mb.
    assert (Eo : origin l row c k = sign16 x) by (unfold c; rewrite origin_at by assumption; rewrite El, Z.eqb_refl; reflexivity).
    eexists. split.
    - unfold remove_assoc. fold c. rewrite offset_col_is by assumption. fold c. cbn [obind]. rewrite step_mod, step_mul, Z.add_0_r. cbv zeta.
      rewrite (assoc_range_is x k Hk : assoc_range s x c = true), (entry_in row c k Hr Hc Hk), (cell_in row c Hr Hc), (Il k Hk), Eo, Z.eqb_refl, Ic. unfold ensure, dontcare.
      destruct (k <? nreal s) eqn:A1; [| lia ]. destruct (0 <=? row) eqn:A2; [| lia ]. destruct (row <? rows s) eqn:A3; [| lia ]. destruct (0 <=? x) eqn:A4; [| lia ]. destruct (x <? cols s) eqn:A5; [| lia ]. cbn [andb].
      assert (A7 : (k <? list_size s) = true) by (rewrite lists_is; exact A1). rewrite A7. destruct (0 <? matched s l row c) eqn:A6; [| lia ]. reflexivity.
    - intros row' c' Hr' Hc'. destruct (I row' c' Hr' Hc') as [Jc Jl]. cbn [cnt lst]. split.
      + destruct (Z.eq_dec row' row) as [->|Nr].
        * rewrite matched_change by exact Hx. destruct (hits s (upd l (at_ row x) (dontcare s)) row c' x) eqn:E1; [ apply hits_real in E1; rewrite upd_same in E1; unfold dontcare in E1; lia |].
          destruct (Z.eq_dec c' c) as [->|Nc].
          -- rewrite upd_same, Hh. unfold wrap16. rewrite Z.mod_small by lia. lia.
          -- rewrite upd_other by (intro E; destruct (cell_inj _ _ _ _ Hc' Hc E); contradiction). rewrite Jc. destruct (hits s l row c' x) eqn:E2; [| lia ]. apply hits_real in E2. rewrite El in E2. exfalso. apply Nc. symmetry. apply E2.
        * rewrite matched_other by assumption. rewrite upd_other by (intro E; destruct (cell_inj _ _ _ _ Hc' Hc E); contradiction). exact Jc.
      + intros k' Hk'. destruct (Z.eq_dec (cell s row' c' * list_size s + k') (cell s row c * list_size s + k)) as [E|E].
        * destruct (entry_inj _ _ _ _ _ _ Hc' Hc Hk' Hk E) as (-> & -> & ->). rewrite upd_same. unfold c. rewrite origin_at by assumption. rewrite upd_same. destruct (dontcare s =? k) eqn:A; [ unfold dontcare in A; lia | reflexivity ].
        * rewrite upd_other by exact E. rewrite (Jl k' Hk'). symmetry. apply origin_other. intros y Hy Ey Ty. unfold dontcare. destruct (nreal s =? k') eqn:A1; [ lia |]. rewrite El. apply Z.eqb_neq. intro; subst k'. apply E. 
          destruct (flat_inj (cols s) row' row y x) as [-> ->]; [ lia | lia | exact Ey |]. unfold c. now rewrite Ty.
  Qed.

  Lemma add_ok l a row x k : pixel row x -> ~ 0 <= l (at_ row x) < nreal s -> 0 <= k < nreal s -> inv l a ->
    exists a', add_assoc s a row x k = Some a' /\ inv (upd l (at_ row x) k) a'.
  Proof.
    intros (Hr & Hx & Hi) El Hk I. pose proof (target_column x k Hx Hk) as Hc. set (c := target s x (mind s + k)) in *. destruct (I row c Hr Hc) as [Ic Il].
    pose proof (matched_bound l row c) as Mb.
    assert (Eo : origin l row c k = -1) by (unfold c; rewrite origin_at by assumption; destruct (l (at_ row x) =? k) eqn:A; [ lia | reflexivity ]).
    assert (Hh : forall c', hits s l row c' x = false) by (intro c'; destruct (hits s l row c' x) eqn:A; [ apply hits_real in A; lia | reflexivity ]).
    eexists. split.
    - unfold add_assoc. rewrite offset_col_is by assumption. fold c. cbn [obind]. rewrite step_mod, step_mul, Z.add_0_r. cbv zeta.
      rewrite (assoc_range_is x k Hk : assoc_range s x c = true), (entry_in row c k Hr Hc Hk), (cell_in row c Hr Hc), (Il k Hk), Eo, Z.eqb_refl, Ic. unfold ensure, dontcare.
      destruct (k <? nreal s) eqn:A1; [| lia ]. destruct (0 <=? row) eqn:A2; [| lia ]. destruct (row <? rows s) eqn:A3; [| lia ]. destruct (0 <=? x) eqn:A4; [| lia ]. destruct (x <? cols s) eqn:A5; [| lia ]. cbn [andb].
      assert (A7 : (k <? list_size s) = true) by (rewrite lists_is; exact A1). rewrite A7. destruct (matched s l row c <? 65535) eqn:A6; [| lia ]. reflexivity.
    - intros row' c' Hr' Hc'. destruct (I row' c' Hr' Hc') as [Jc Jl]. cbn [cnt lst]. split.
      + destruct (Z.eq_dec row' row) as [->|Nr].
        * rewrite matched_change by exact Hx. rewrite Hh. destruct (Z.eq_dec c' c) as [->|Nc].
          -- rewrite upd_same. destruct (hits s (upd l (at_ row x) k) row c x) eqn:A; [ unfold wrap16; rewrite Z.mod_small by lia; lia |]. exfalso. assert (X : hits s (upd l (at_ row x) k) row c x = true) by (apply hits_real; rewrite upd_same; auto). congruence.
          -- rewrite upd_other by (intro E; destruct (cell_inj _ _ _ _ Hc' Hc E); contradiction). rewrite Jc. destruct (hits s (upd l (at_ row x) k) row c' x) eqn:E2; [| lia ]. apply hits_real in E2. rewrite upd_same in E2. exfalso. apply Nc. symmetry. apply E2.
        * rewrite matched_other by assumption. rewrite upd_other by (intro E; destruct (cell_inj _ _ _ _ Hc' Hc E); contradiction). exact Jc.
      + intros k' Hk'. destruct (Z.eq_dec (cell s row' c' * list_size s + k') (cell s row c * list_size s + k)) as [E|E].
        * destruct (entry_inj _ _ _ _ _ _ Hc' Hc Hk' Hk E) as (-> & -> & ->). rewrite upd_same. unfold c. rewrite origin_at by assumption. now rewrite upd_same, Z.eqb_refl.
        * rewrite upd_other by exact E. rewrite (Jl k' Hk'). symmetry. apply origin_other. intros y Hy Ey Ty. destruct (l (at_ row x) =? k') eqn:A1; [ lia |]. symmetry. apply Z.eqb_neq. intro; subst k'. apply E. 
          destruct (flat_inj (cols s) row' row y x) as [-> ->]; [ lia | lia | exact Ey |]. unfold c. now rewrite Ty.
  Qed.
End Setup.
