(* Votes and hole filling of Model.StereoProjection. *)
From Coq Require Import ZArith List Bool Lia.
From Verif Require Import Lib.Grid Model.FusionTerms Spec.FusionTerms Model.StereoMoves Spec.StereoMoves Proofs.StereoMoves Model.StereoProjection Spec.StereoProjection.
Import ListNotations.
Local Open Scope Z_scope.

(* std::max_element *)
Lemma max_from_spec vs : forall best k0 k n, max_from best k0 vs = (k, n) ->
  (k = fst best /\ n = snd best /\ forall v, In v vs -> v <= n) \/
  (exists p, nth_error vs p = Some n /\ k = k0 + Z.of_nat p /\ snd best < n /\ (forall v, In v vs -> v <= n) /\ forall q v, (q < p)%nat -> nth_error vs q = Some v -> v < n).
Proof.
  induction vs as [|w vs IH]; intros best k0 k n E; cbn [max_from] in E.
  - left. subst best. cbn. repeat split; auto. intros v [].
  - destruct (IH _ _ _ _ E) as [(Ek & En & Hall)|(p & E1 & E2 & E3 & E4 & E5)]; destruct (snd best <? w) eqn:D; cbn [fst snd] in *.
    + right. exists O. subst. cbn. repeat split; try lia. intros v [<-|I]; [ lia | now apply Hall ].
    + left. subst. repeat split; auto. intros v [<-|I]; [ lia | now apply Hall ].
    + right. exists (S p). cbn [nth_error]. repeat split; auto; try lia. { intros v [<-|I]; [ lia | now apply E4 ]. } intros [|q] v Hq Eq; [ injection Eq as <-; lia | apply (E5 q v); [ lia | exact Eq ] ].
    + right. exists (S p). cbn [nth_error]. repeat split; auto; try lia. { intros v [<-|I]; [ lia | now apply E4 ]. } intros [|q] v Hq Eq; [ injection Eq as <-; lia | apply (E5 q v); [ lia | exact Eq ] ].
Qed.
Lemma max_element_spec vs k n : max_element vs = Some (k, n) ->
  0 <= k /\ nth_error vs (Z.to_nat k) = Some n /\ (forall v, In v vs -> v <= n) /\ (forall q v, (q < Z.to_nat k)%nat -> nth_error vs q = Some v -> v < n).
Proof.
  destruct vs as [|w vs]; [ discriminate |]. intros [= E]. destruct (max_from_spec vs _ _ _ _ E) as [(-> & -> & H)|(p & E1 & -> & E3 & E4 & E5)]; cbn [fst snd] in *.
  - split; [ lia |]. split; [ reflexivity |]. split; [ intros v [<-|I]; [ lia | now apply H ] |]. intros q v Hq. cbn in Hq. lia.
  - replace (Z.to_nat (1 + Z.of_nat p)) with (S p) by lia. split; [ lia |]. split; [ exact E1 |]. split; [ intros v [<-|I]; [ lia | now apply E4 ] |]. intros [|q] v Hq Eq; [ injection Eq as <-; lia | apply (E5 q v); [ lia | exact Eq ] ].
Qed.
Lemma nth_zrange a n k : 0 <= k < n -> nth_error (zrange a n) (Z.to_nat k) = Some (a + k).
Proof. intro H. unfold zrange. rewrite (nth_error_nth' _ 0) by (rewrite zseq_length; lia). rewrite nth_zseq by lia. f_equal. lia. Qed.

Section Setup.
  Variable s : setup.
  Hypothesis S0 : sound s.
  Variable roi : Z -> bool.
  Let N0 : 1 <= nreal s <= 253. Proof. apply S0. Qed.
  Let D0 : 0 < rows s /\ 0 < cols s /\ 0 <= mind s. Proof. destruct S0 as (A & B & C & _). auto. Qed.
  Notation at_ := (StereoMoves.at_ s).

  Section Base.
  Variable base : Z -> Z.
  Hypothesis B0 : forall i, 0 <= base i.

  Definition votes (row x j : Z) : bool :=
    (base (at_ row x) <? nreal s) && (let c := target s x (mind s + base (at_ row x)) in
      (0 <=? c) && (c <? cols s) && roi (at_ row c) && (j =? vote_cell s (at_ row c) (nreal s - 1 - base (at_ row x)))).
  Lemma cell_in_votes row c k : 0 <= row < rows s -> 0 <= c < cols s -> 0 <= k < nreal s -> in_votes s (vote_cell s (at_ row c) k) = true.
  Proof. intros Hr Hc Hk. unfold in_votes, vote_cell. pose proof (flat_bound (cols s) (rows s) row c Hr Hc) as A. fold (at_ row c) in A. pose proof (flat_bound (nreal s) (rows s * cols s) (at_ row c) k A Hk). lia. Qed.
  Lemma vote_ok row x v : 0 <= row < rows s -> 0 <= x < cols s -> exists v', vote s roi base row v x = Some v' /\ forall j, v' j = v j + (if votes row x j then 1 else 0).
  Proof.
    intros Hr Hx. unfold vote, votes. fold (at_ row x). cbv zeta. pose proof (B0 (at_ row x)) as Hl. destruct (base (at_ row x) <? nreal s) eqn:E; cbn [andb].
    - rewrite offset_col_is by lia. cbn [obind]. set (c := target s x (mind s + base (at_ row x))). destruct ((0 <=? c) && (c <? cols s)) eqn:Ec; cbn [andb]; [| exists v; split; [ reflexivity | intro; lia ] ]. fold (at_ row c). destruct (roi (at_ row c)); cbn [andb]; [| exists v; split; [ reflexivity | intro; lia ] ].
      rewrite cell_in_votes by lia. cbn [ensure]. eexists. split; [ reflexivity |]. intro j. unfold upd. destruct (j =? _) eqn:Ej; [ apply Z.eqb_eq in Ej; subst j |]; lia.
    - exists v. split; [ reflexivity | intro; lia ].
  Qed.
  Lemma votes_ok row X : 0 <= row < rows s -> (forall x, In x X -> 0 <= x < cols s) -> forall v, exists v', ofold (vote s roi base row) X v = Some v' /\ forall j, v' j = v j + count (fun x => votes row x j) X.
  Proof.
    intros Hr. induction X as [|x X IH]; intros HX v; cbn [ofold].
    - exists v. split; [ reflexivity | intro; unfold count; cbn; lia ].
    - destruct (vote_ok row x v Hr (HX x (or_introl eq_refl))) as (v1 & -> & E1). cbn [obind]. destruct (IH (fun y I => HX y (or_intror I)) v1) as (v2 & -> & E2). exists v2. split; [ reflexivity |]. intro j. rewrite E2, E1, Grid.count_cons. lia.
  Qed.
  Lemma votes_cell row x row' c k : 0 <= c < cols s -> 0 <= k < nreal s -> roi (at_ row' c) = true ->
    (votes row x (vote_cell s (at_ row' c) k) = true <-> row = row' /\ base (at_ row x) = nreal s - 1 - k /\ target s x (mind s + base (at_ row x)) = c).
  Proof.
    intros Hc Hk R. unfold votes. cbv zeta. pose proof (B0 (at_ row x)) as Hl. set (t := target s x (mind s + base (at_ row x))). split.
    - intro H. repeat (apply andb_true_iff in H; destruct H as [H ?]). repeat match goal with X : _ && _ = true |- _ => apply andb_true_iff in X; destruct X end. match goal with X : (_ =? _) = true |- _ => apply Z.eqb_eq in X; rename X into Q end. unfold vote_cell in Q. apply flat_inj in Q; [| lia | lia ]. destruct Q as [X Y]. unfold StereoMoves.at_ in X. apply flat_inj in X; [| lia | lia ]. lia.
    - intros (-> & E & T). rewrite T, R. replace k with (nreal s - 1 - base (at_ row' x)) by lia. rewrite Z.eqb_refl. apply andb_true_iff. split; [ lia |]. rewrite !andb_true_r. lia.
  Qed.
  Lemma count_cell row c k : 0 <= c < cols s -> 0 <= k < nreal s -> roi (at_ row c) = true ->
    0 <= count (fun x => votes row x (vote_cell s (at_ row c) k)) (zrange 0 (cols s)) <= 1 /\
    (0 < count (fun x => votes row x (vote_cell s (at_ row c) k)) (zrange 0 (cols s)) <-> matched_by s base row c (nreal s - 1 - k)).
  Proof.
    intros Hc Hk R. set (p := fun x => votes row x (vote_cell s (at_ row c) k)). assert (P : forall x, p x = true <-> base (at_ row x) = nreal s - 1 - k /\ target s x (mind s + base (at_ row x)) = c) by (intro x; unfold p; rewrite votes_cell by assumption; tauto).
    unfold count. assert (N : NoDup (filter p (zrange 0 (cols s)))) by apply NoDup_filter, nodup_zseq. split.
    - split; [ lia |]. assert (U : forall y z, In y (filter p (zrange 0 (cols s))) -> In z (filter p (zrange 0 (cols s))) -> y = z).
      { intros y z Y Z. apply filter_In in Y, Z. destruct Y as [_ Y], Z as [_ Z]. apply P in Y, Z. destruct Y as [Y1 Y2], Z as [Z1 Z2]. apply (target_inj_x s y z (mind s + (nreal s - 1 - k))). rewrite Y1 in Y2. rewrite Z1 in Z2. congruence. }
      destruct (filter p (zrange 0 (cols s))) as [|y [|z r]]; [ cbn; lia | cbn; lia |]. exfalso. apply NoDup_cons_iff in N. destruct N as [N _]. apply N. left. apply U; [ right; now left | now left ].
    - unfold matched_by. fold (at_ row). split.
      + intro H. destruct (filter p (zrange 0 (cols s))) as [|x r] eqn:F; [ cbn in H; lia |]. assert (I : In x (filter p (zrange 0 (cols s)))) by (rewrite F; now left). apply filter_In in I. destruct I as [Ix Px]. apply in_zrange in Ix. apply P in Px. destruct Px as [P1 P2]. exists x. unfold StereoMoves.at_ in *. rewrite P1 in P2. repeat split; try lia; assumption.
      + intros (x & Hx & Hl & E & T). assert (I : In x (filter p (zrange 0 (cols s)))) by (apply filter_In; split; [ apply in_zrange; lia | apply P; unfold StereoMoves.at_; rewrite E; auto ]). destruct (filter p (zrange 0 (cols s))); [ destruct I | cbn; lia ].
  Qed.

  Definition won (v : Z -> Z) (row x : Z) : Z :=
    match max_element (map (fun k => v (vote_cell s (at_ row x) k)) (zrange 0 (nreal s))) with Some (k, n) => if 0 <? n then nreal s - 1 - k else occluded s | None => occluded s end.
  Lemma winners v row X : NoDup X -> (forall x, In x X -> 0 <= x < cols s) -> forall l, let l' := fold_left (winner s roi v row) X l in
    (forall x, 0 <= x < cols s -> l' (at_ row x) = if existsb (Z.eqb x) X && roi (at_ row x) then won v row x else l (at_ row x)) /\ (forall i, (forall x, 0 <= x < cols s -> i <> at_ row x) -> l' i = l i).
  Proof.
    intro N. induction N as [|y X Ny N IH]; intros HX l l'.
    - unfold l'. cbn [fold_left existsb andb]. auto.
    - unfold l'. cbn [fold_left]. specialize (IH (fun x I => HX x (or_intror I)) (winner s roi v row l y)). cbv zeta in IH. destruct IH as [I1 I2]. pose proof (HX y (or_introl eq_refl)) as Hy. split.
      + intros x Hx. rewrite I1 by exact Hx. cbn [existsb]. unfold winner. fold (at_ row y) (won v row y). destruct (Z.eq_dec x y) as [->|Nx].
        * assert (F : existsb (Z.eqb y) X = false) by (destruct (existsb (Z.eqb y) X) eqn:Q; [| reflexivity ]; apply existsb_exists in Q; destruct Q as (z & Iz & Ez); apply Z.eqb_eq in Ez; subst z; contradiction). rewrite F, Z.eqb_refl. cbn [orb andb]. destruct (roi (at_ row y)); [ now rewrite upd_same | reflexivity ].
        * replace (x =? y) with false by lia. cbn [orb]. destruct (existsb (Z.eqb x) X && roi (at_ row x)); [ reflexivity |]. destruct (roi (at_ row y)); [| reflexivity ]. rewrite upd_other; [ reflexivity |]. unfold StereoMoves.at_. intro E. apply flat_inj in E; lia.
      + intros i Hi. rewrite I2 by exact Hi. unfold winner. fold (at_ row y). destruct (roi (at_ row y)); [| reflexivity ]. rewrite upd_other; [ reflexivity |]. now apply Hi.
  Qed.

  Definition row_done (l : Z -> Z) (row : Z) : Prop := forall x, 0 <= x < cols s -> (roi (at_ row x) = true -> nearest_surface s base row x (l (at_ row x))) /\ (roi (at_ row x) = false -> l (at_ row x) = dontcare s).
  Definition row_clean (v l : Z -> Z) (row : Z) : Prop := forall x, 0 <= x < cols s -> l (at_ row x) = dontcare s /\ forall k, 0 <= k < nreal s -> roi (at_ row x) = true -> v (vote_cell s (at_ row x) k) = 0.
  Lemma won_is v v0 row x : 0 <= row < rows s -> 0 <= x < cols s -> roi (at_ row x) = true -> (forall k, 0 <= k < nreal s -> v0 (vote_cell s (at_ row x) k) = 0) ->
    (forall j, v j = v0 j + count (fun x => votes row x j) (zrange 0 (cols s))) -> nearest_surface s base row x (won v row x).
  Proof.
    intros Hr Hx R Z0 V. unfold won. set (f := fun k => v (vote_cell s (at_ row x) k)). assert (F : forall k, 0 <= k < nreal s -> 0 <= f k <= 1 /\ (0 < f k <-> matched_by s base row x (nreal s - 1 - k))) by (intros k Hk; unfold f; rewrite V, Z0 by exact Hk; rewrite Z.add_0_l; now apply count_cell).
    destruct (max_element (map f (zrange 0 (nreal s)))) as [[k n]|] eqn:M.
    - destruct (max_element_spec _ _ _ M) as (Hk & E & Hall & Hbefore). assert (Kn : 0 <= k < nreal s) by (assert ((Z.to_nat k < length (map f (zrange 0 (nreal s))))%nat) by (apply nth_error_Some; congruence); rewrite map_length in H; unfold zrange in H; rewrite zseq_length in H; lia).
      rewrite nth_error_map, nth_zrange in E by exact Kn. rewrite Z.add_0_l in E. cbn [option_map] in E. injection E as E. destruct (0 <? n) eqn:Dn.
      + left. split; [ apply F; [ exact Kn | lia ] |]. intros l Ml. assert (Hl : 0 <= l < nreal s) by (destruct Ml as (? & _ & ? & _); assumption). destruct (Z_le_gt_dec l (nreal s - 1 - k)) as [|G]; [ assumption |]. exfalso. set (q := nreal s - 1 - l). assert (Q : 0 < f q) by (apply F; [ unfold q; lia | unfold q; replace (nreal s - 1 - (nreal s - 1 - l)) with l by lia; exact Ml ]).
        assert (B : f q < n) by (apply (Hbefore (Z.to_nat q)); [ unfold q; lia | rewrite nth_error_map, nth_zrange by (unfold q; lia); cbn [option_map]; now rewrite Z.add_0_l ]). pose proof (F k Kn). lia.
      + right. split; [| reflexivity ]. intros l Ml. assert (Hl : 0 <= l < nreal s) by (destruct Ml as (? & _ & ? & _); assumption). assert (Q : 0 < f (nreal s - 1 - l)) by (apply F; [ lia | replace (nreal s - 1 - (nreal s - 1 - l)) with l by lia; exact Ml ]). assert (f (nreal s - 1 - l) <= n) by (apply Hall, in_map, in_zrange; lia). lia.
    - exfalso. unfold zrange in M. destruct (Z.to_nat (nreal s)) eqn:K; [ lia |]. rewrite zseq_S in M. discriminate M.
  Qed.
  Lemma project_row_ok v l row : 0 <= row < rows s -> row_clean v l row -> exists v' l', project_row s roi base (v, l) row = Some (v', l') /\ row_done l' row /\
    forall row', row' <> row -> (row_done l row' -> row_done l' row') /\ (row_clean v l row' -> row_clean v' l' row').
  Proof.
    intros Hr C. unfold project_row. cbn [fst snd]. destruct (votes_ok row (zrange 0 (cols s)) Hr) with (v := v) as (v' & -> & V); [ intros x I; apply in_zrange in I; lia |]. cbn [obind]. eexists v', _. split; [ reflexivity |].
    destruct (winners v' row (zrange 0 (cols s)) (nodup_zseq _ _)) with (l := l) as [W1 W2]; [ intros x I; apply in_zrange in I; lia |]. set (l' := fold_left _ _ _) in *.
    assert (Ex : forall x, 0 <= x < cols s -> existsb (Z.eqb x) (zrange 0 (cols s)) = true) by (intros x Hx; apply existsb_exists; exists x; split; [ apply in_zrange; lia | apply Z.eqb_refl ]). split.
    - intros x Hx. rewrite W1, Ex by exact Hx. cbn [andb]. split; intro R; rewrite R.
      + apply (won_is v' v); auto. intros k Hk. now apply C.
      + now apply C.
    - intros row' Nr. assert (Sm : forall x, 0 <= x < cols s -> l' (at_ row' x) = l (at_ row' x)) by (intros x Hx; apply W2; intros y Hy E; unfold StereoMoves.at_ in E; apply flat_inj in E; lia). split.
      + intros D x Hx. rewrite Sm by exact Hx. now apply D.
      + intros D x Hx. rewrite Sm by exact Hx. destruct (D x Hx) as [D1 D2]. split; [ exact D1 |]. intros k Hk R. rewrite V, D2 by assumption. unfold count. rewrite filter_none; [ reflexivity |]. intros y _. destruct (votes row y (vote_cell s (at_ row' x) k)) eqn:Q; [| reflexivity ]. apply votes_cell in Q; auto. destruct Q as (Q & _). congruence.
  Qed.
  Lemma project_ok : exists l, project s roi base = Some l /\ forall row, 0 <= row < rows s -> row_done l row.
  Proof.
    unfold project. assert (G : forall L v l, NoDup L -> (forall r, In r L -> 0 <= r < rows s /\ row_clean v l r) -> exists v' l', ofold (project_row s roi base) L (v, l) = Some (v', l') /\ (forall r, In r L -> row_done l' r) /\ (forall r, ~ In r L -> row_done l r -> row_done l' r)).
    { induction L as [|r L IH]; intros v l N H; cbn [ofold].
      - exists v, l. split; [ reflexivity |]. split; [ intros r [] | auto ].
      - apply NoDup_cons_iff in N. destruct N as [Nr N]. destruct (H r (or_introl eq_refl)) as [Hr C]. destruct (project_row_ok v l r Hr C) as (v1 & l1 & -> & D1 & O1). cbn [obind]. destruct (IH v1 l1 N) as (v2 & l2 & E2 & D2 & O2).
        { intros q Iq. destruct (H q (or_intror Iq)) as [Hq Cq]. split; [ exact Hq |]. apply O1; [ intro; subst; contradiction | exact Cq ]. }
        exists v2, l2. split; [ exact E2 |]. split.
        + intros q [<-|Iq]; [ now apply O2 | now apply D2 ].
        + intros q Nq Dq. apply O2; [ intro; apply Nq; now right |]. apply O1; [ intro; subst; apply Nq; now left | exact Dq ]. }
    destruct (G (zrange 0 (rows s)) (fun _ => 0) (fun _ => dontcare s) (nodup_zseq _ _)) as (v & l & E & D & _).
    { intros r I. apply in_zrange in I. split; [ lia |]. intros x Hx. split; reflexivity. }
    rewrite E. cbn [obind snd]. exists l. split; [ reflexivity |]. intros row Hr. apply D, in_zrange. lia.
  Qed.
  Lemma nearest_range row x v : nearest_surface s base row x v -> 0 <= v < nlabels s.
  Proof. unfold nlabels. intros [((y & _ & H & _) & _)|(_ & ->)]; lia. Qed.
  End Base.

  (* the median is one of the values *)
  Lemma insert_in x l y : In y (insert x l) <-> y = x \/ In y l.
  Proof. induction l as [|a l IH]; cbn [insert In]; [ intuition |]. destruct (x <=? a); cbn [In]; [ intuition |]. rewrite IH. intuition. Qed.
  Lemma sort_in l y : In y (sort l) <-> In y l.
  Proof. induction l as [|a l IH]; [ reflexivity |]. cbn [sort fold_right In]. rewrite insert_in. fold (sort l). rewrite IH. intuition. Qed.
  Lemma insert_length x l : length (insert x l) = S (length l).
  Proof. induction l as [|a l IH]; cbn [insert length]; [ reflexivity |]. destruct (x <=? a); cbn [length]; [ reflexivity | now rewrite IH ]. Qed.
  Lemma sort_length l : length (sort l) = length l.
  Proof. induction l as [|a l IH]; [ reflexivity |]. cbn [sort fold_right length]. rewrite insert_length. fold (sort l). now rewrite IH. Qed.
  Lemma clamp_range n v : 0 < n -> 0 <= clamp n v < n. Proof. unfold clamp. lia. Qed.
  Lemma median_in l i : exists row x, 0 <= row < rows s /\ 0 <= x < cols s /\ median s l i = l (at_ row x).
  Proof.
    unfold median. set (ws := map _ _). assert (I : In (nth 40 (sort ws) 0) ws). { apply sort_in, nth_In. rewrite sort_length. unfold ws, grid. rewrite map_length, prod_len. unfold zrange. rewrite !zseq_length. cbn. lia. }
    unfold ws in I at 2. apply in_map_iff in I. destruct I as (rc & <- & _). exists (clamp (rows s) (fst rc)), (clamp (cols s) (snd rc)). split; [ apply clamp_range; lia |]. split; [ apply clamp_range; lia | reflexivity ].
  Qed.

  (* filling *)
  Variable l0 : Z -> Z.
  Hypothesis R0 : forall row x, 0 <= row < rows s -> 0 <= x < cols s -> 0 <= l0 (at_ row x) < nlabels s.
  Lemma probe_some l row c : probe s roi l row c = if (0 <=? c) && (c <? cols s) && roi (at_ row c) && negb (l (at_ row c) =? dontcare s) then Some (l (at_ row c)) else None.
  Proof. reflexivity. Qed.

  Definition clause (l : Z -> Z) (row x : Z) : Prop :=
    (roi (at_ row x) = false -> l (at_ row x) = dontcare s) /\ (roi (at_ row x) = true -> l0 (at_ row x) <> dontcare s -> l (at_ row x) = l0 (at_ row x)) /\ (roi (at_ row x) = true -> l0 (at_ row x) = dontcare s -> hole_filled s roi l0 l row x).
  Definition part (row n : Z) (l : Z -> Z) : Prop :=
    (forall x, 0 <= x < n -> l (at_ row x) = l0 (at_ row x)) /\
    (forall x, n <= x < cols s -> roi (at_ row x) = true -> l (at_ row x) <> dontcare s) /\
    (forall x, n <= x < cols s -> clause l row x) /\
    (forall x, 0 <= x < cols s -> 0 <= l (at_ row x) < nlabels s).

  Lemma search_spec l row x (Rt : forall o, 1 <= o -> on_right s roi row x o -> l (at_ row (x + o)) <> dontcare s) (Lf : forall o, 1 <= o <= x -> l (at_ row (x - o)) = l0 (at_ row (x - o))) : forall m a, 1 <= a ->
    let v := search s roi l row x (zseq a m) in
    (exists o, a <= o < a + Z.of_nat m /\ (forall o', a <= o' < o -> ~ on_right s roi row x o' /\ ~ on_left s roi l0 row x o') /\
       ((on_right s roi row x o /\ v = l (at_ row (x + o))) \/ (~ on_right s roi row x o /\ on_left s roi l0 row x o /\ v = l0 (at_ row (x - o))))) \/
    ((forall o, a <= o < a + Z.of_nat m -> ~ on_right s roi row x o /\ ~ on_left s roi l0 row x o) /\ v = 0).
  Proof.
    induction m as [|m IH]; intros a Ha v.
    - right. split; [ lia | reflexivity ].
    - unfold v. rewrite zseq_S. cbn [search]. rewrite !probe_some. clear v. specialize (IH (a + 1) ltac:(lia)). cbv zeta in IH.
      destruct ((0 <=? x + a) && (x + a <? cols s) && roi (at_ row (x + a)) && negb (l (at_ row (x + a)) =? dontcare s)) eqn:P.
      + left. exists a. split; [ lia |]. split; [ lia |]. left. split; [| reflexivity ]. unfold on_right, in_row. fold (at_ row (x + a)). repeat (apply andb_true_iff in P; destruct P as [P ?]). split; [ lia | assumption ].
      + assert (NR : ~ on_right s roi row x a). { intro O. pose proof (Rt a Ha O) as X. destruct O as [O1 O2]. fold (at_ row (x + a)) in O2. rewrite O2 in P. replace ((0 <=? x + a) && (x + a <? cols s)) with true in P by lia. cbn [andb] in P. apply negb_false_iff, Z.eqb_eq in P. contradiction. }
        destruct ((0 <=? x - a) && (x - a <? cols s) && roi (at_ row (x - a)) && negb (l (at_ row (x - a)) =? dontcare s)) eqn:Q.
        * left. exists a. split; [ lia |]. split; [ lia |]. right. split; [ exact NR |]. repeat (apply andb_true_iff in Q; destruct Q as [Q ?]). rewrite Lf in * by lia. split; [| reflexivity ]. unfold on_left, in_row. fold (at_ row (x - a)). repeat split; try assumption; lia.
        * assert (NL : ~ on_left s roi l0 row x a). { intros [[O1 O2] O3]. fold (at_ row (x - a)) in O2, O3. rewrite <- Lf in O3 by lia. rewrite O2 in Q. replace ((0 <=? x - a) && (x - a <? cols s)) with true in Q by lia. cbn [andb] in Q. apply negb_false_iff, Z.eqb_eq in Q. contradiction. }
          destruct IH as [(o & Ho & Mn & Wh)|[Nn Ev]].
          -- left. exists o. split; [ lia |]. split; [| exact Wh ]. intros o' Ho'. destruct (Z.eq_dec o' a) as [->|]; [ auto | apply Mn; lia ].
          -- right. split; [| exact Ev ]. intros o Ho. destruct (Z.eq_dec o a) as [->|]; [ auto | apply Nn; lia ].
  Qed.
  Lemma fill_step row n l : 0 <= row < rows s -> 0 <= n < cols s -> part row (n + 1) l -> part row n (fill_at s roi row l n).
  Proof.
    intros Hr Hn (A & B & C & D). unfold fill_at. fold (at_ row n). set (v := if negb (roi (at_ row n)) then _ else _).
    assert (Ot : forall x, 0 <= x < cols s -> x <> n -> upd l (at_ row n) v (at_ row x) = l (at_ row x)) by (intros x Hx Nx; apply upd_other; unfold StereoMoves.at_; intro E; apply flat_inj in E; lia).
    assert (V : upd l (at_ row n) v (at_ row n) = v) by apply upd_same.
    assert (An : l (at_ row n) = l0 (at_ row n)) by (apply A; lia).
    assert (Sp : roi (at_ row n) = true -> l (at_ row n) = dontcare s -> v = search s roi l row n (zseq 1 (Z.to_nat (maxd s)))).
    { intros R E. unfold v. rewrite R, E, Z.eqb_refl. cbn [negb]. assert (0 <= maxd s) by (rewrite maxd_is; lia). unfold zrange. replace (Z.to_nat (maxd s + 1)) with (S (Z.to_nat (maxd s))) by lia. rewrite zseq_S. cbn [search]. rewrite !probe_some, !Z.sub_0_r, !Z.add_0_r. rewrite E, Z.eqb_refl, !andb_false_r. reflexivity. }
    assert (Voff : roi (at_ row n) = false -> v = dontcare s) by (intro R; unfold v; now rewrite R).
    assert (Vkeep : roi (at_ row n) = true -> l (at_ row n) <> dontcare s -> v = l (at_ row n)) by (intros R E; unfold v; rewrite R; cbn [negb]; destruct (l (at_ row n) =? dontcare s) eqn:Q; [ apply Z.eqb_eq in Q; contradiction | reflexivity ]). clearbody v.
    assert (Ss := search_spec l row n). assert (Q1 : forall o, 1 <= o -> on_right s roi row n o -> l (at_ row (n + o)) <> dontcare s) by (intros o Ho [O1 O2]; apply B; [ lia | exact O2 ]). assert (Q2 : forall o, 1 <= o <= n -> l (at_ row (n - o)) = l0 (at_ row (n - o))) by (intros o Ho; apply A; lia). specialize (Ss Q1 Q2 (Z.to_nat (maxd s)) 1 ltac:(lia)). cbv zeta in Ss.
    assert (Mx : 0 <= maxd s) by (rewrite maxd_is; lia).
    assert (Vok : 0 <= v < nlabels s /\ (roi (at_ row n) = true -> v <> dontcare s)).
    { destruct (roi (at_ row n)) eqn:R; [| rewrite Voff by reflexivity; unfold nlabels, dontcare; split; [ lia | discriminate ] ]. destruct (Z.eq_dec (l (at_ row n)) (dontcare s)) as [E|E]; [| rewrite Vkeep by auto; split; [ apply D; lia | intros _; exact E ] ]. rewrite (Sp eq_refl E). destruct Ss as [(o & Ho & _ & [[O1 O2]|(_ & O1 & O2)])|(_ & O2)]; rewrite O2.
      - split; [ apply D; destruct O1; lia | intros _; apply Q1; [ lia | exact O1 ] ].
      - destruct O1 as [[O1 O3] O4]. split; [ apply R0; lia | intros _; exact O4 ].
      - unfold nlabels, dontcare. split; [ lia | intros _; lia ]. }
    split; [ intros x Hx; rewrite Ot by lia; apply A; lia |]. split; [ intros x Hx R; destruct (Z.eq_dec x n) as [->|Nx]; [ rewrite V; apply Vok; exact R | rewrite Ot by lia; apply B; [ lia | exact R ] ] |]. split; [| intros x Hx; destruct (Z.eq_dec x n) as [->|Nx]; [ rewrite V; apply Vok | rewrite Ot by lia; now apply D ] ].
    intros x Hx. destruct (Z.eq_dec x n) as [->|Nx].
    - unfold clause. rewrite V. split; [| split ].
      + exact Voff.
      + intros R E. rewrite <- An in *. now apply Vkeep.
      + intros R E. rewrite <- An in E. specialize (Sp R E). unfold hole_filled. fold (at_ row n). rewrite V. rewrite <- Sp in Ss. destruct Ss as [(o & Ho & Mn & [[O1 O2]|(O0 & O1 & O2)])|(Nn & O2)].
        * left. exists o. split; [ lia |]. split; [ exact Mn |]. left. split; [ exact O1 |]. fold (at_ row (n + o)). rewrite Ot by (destruct O1; lia). exact O2.
        * left. exists o. split; [ lia |]. split; [ exact Mn |]. right. auto.
        * right. split; [| exact O2 ]. intros o Ho. apply Nn. lia.
    - unfold clause. rewrite Ot by lia. destruct (C x ltac:(lia)) as (C1 & C2 & C3). split; [ exact C1 |]. split; [ exact C2 |]. intros R E. specialize (C3 R E). unfold hole_filled in *. fold (at_ row x) in *. rewrite Ot by lia. destruct C3 as [(o & Ho & Mn & Wh)|Wh]; [| right; exact Wh ]. left. exists o. split; [ exact Ho |]. split; [ exact Mn |]. destruct Wh as [[O1 O2]|Wh]; [ left | right; exact Wh ]. split; [ exact O1 |]. fold (at_ row (x + o)) in *. rewrite Ot by (destruct O1; lia). exact O2.
  Qed.
  Lemma fill_row row l : 0 <= row < rows s -> (forall x, 0 <= x < cols s -> l (at_ row x) = l0 (at_ row x)) -> part row 0 (fold_left (fill_at s roi row) (rev (zrange 0 (cols s))) l).
  Proof.
    intros Hr E. assert (G : forall n l, (Z.of_nat n <= cols s) -> part row (Z.of_nat n) l -> part row 0 (fold_left (fill_at s roi row) (rev (zseq 0 n)) l)).
    { induction n as [|n IH]; intros l1 Hn P; [ exact P |]. replace (S n) with (n + 1)%nat by lia. rewrite zseq_app, rev_app_distr. change (zseq (0 + Z.of_nat n) 1) with [0 + Z.of_nat n + Z.of_nat 0]. cbn [rev app fold_left]. apply IH; [ lia |]. replace (0 + Z.of_nat n + Z.of_nat 0) with (Z.of_nat n) by lia. apply fill_step; [ exact Hr | lia |]. replace (Z.of_nat n + 1) with (Z.of_nat (S n)) by lia. exact P. }
    apply G; [ lia |]. rewrite Z2Nat.id by lia. split; [ exact E |]. split; [ lia |]. split; [ lia |]. intros x Hx. rewrite E by exact Hx. now apply R0.
  Qed.
  Lemma fill_row_other row l X : (forall x, In x X -> 0 <= x < cols s) -> forall row' y, row' <> row -> 0 <= y < cols s -> fold_left (fill_at s roi row) X l (at_ row' y) = l (at_ row' y).
  Proof.
    revert l. induction X as [|x X IH]; intros l HX row' y Nr Hy; [ reflexivity |]. cbn [fold_left]. rewrite IH; [| intros z I; apply HX; now right | exact Nr | exact Hy ]. unfold fill_at. apply upd_other. unfold StereoMoves.at_. intro E. pose proof (HX x (or_introl eq_refl)). apply flat_inj in E; lia.
  Qed.
  Lemma part_same row l l' : (forall x, 0 <= x < cols s -> l' (at_ row x) = l (at_ row x)) -> part row 0 l -> part row 0 l'.
  Proof.
    intros E (_ & B & C & D). split; [ lia |]. split; [ intros x Hx R; rewrite E by exact Hx; now apply B |]. split; [| intros x Hx; rewrite E by exact Hx; now apply D ].
    intros x Hx. destruct (C x Hx) as (C1 & C2 & C3). unfold clause. rewrite E by exact Hx. split; [ exact C1 |]. split; [ exact C2 |]. intros R Q. specialize (C3 R Q). unfold hole_filled in *. fold (at_ row x) in *. rewrite E by exact Hx. destruct C3 as [(o & Ho & Mn & Wh)|Wh]; [| right; exact Wh ]. left. exists o. split; [ exact Ho |]. split; [ exact Mn |]. destruct Wh as [[O1 O2]|Wh]; [ left | right; exact Wh ]. split; [ exact O1 |]. fold (at_ row (x + o)) in *. rewrite E by (destruct O1; lia). exact O2.
  Qed.
  Lemma fill_ok row : 0 <= row < rows s -> part row 0 (fill s roi l0).
  Proof.
    intro Hr. unfold fill. assert (G : forall L l, NoDup L -> (forall r, In r L -> 0 <= r < rows s /\ forall x, 0 <= x < cols s -> l (at_ r x) = l0 (at_ r x)) -> let f := fold_left (fun l row => fold_left (fill_at s roi row) (rev (zrange 0 (cols s))) l) L l in (forall r, In r L -> part r 0 f) /\ (forall r y, ~ In r L -> 0 <= y < cols s -> f (at_ r y) = l (at_ r y))).
    { assert (Xr : forall x, In x (rev (zrange 0 (cols s))) -> 0 <= x < cols s) by (intros x I; apply in_rev in I; apply in_zrange in I; lia).
      induction L as [|r L IH]; intros l N H f; [ split; [ intros r [] | reflexivity ] |]. apply NoDup_cons_iff in N. destruct N as [Nr N]. unfold f. cbn [fold_left]. destruct (H r (or_introl eq_refl)) as [Hr1 E1]. set (l1 := fold_left (fill_at s roi r) (rev (zrange 0 (cols s))) l). specialize (IH l1 N). cbv zeta in IH. destruct IH as [I1 I2].
      { intros q Iq. destruct (H q (or_intror Iq)) as [Hq Eq]. split; [ exact Hq |]. intros x Hx. unfold l1. rewrite fill_row_other; auto. intro; subst; contradiction. }
      split.
      - intros q [<-|Iq]; [| now apply I1 ]. apply (part_same r l1); [ intros x Hx; now apply I2 |]. now apply fill_row.
      - intros q y Nq Hy. rewrite I2; [| intro; apply Nq; now right | exact Hy ]. unfold l1. apply fill_row_other; auto. intro; subst; apply Nq; now left. }
    destruct (G (zrange 0 (rows s)) l0 (nodup_zseq _ _)) as [G1 _]; [ intros r I; apply in_zrange in I; split; [ lia | reflexivity ] |]. apply G1, in_zrange. lia.
  Qed.
  Lemma fill_filled : filled s roi l0 (fill s roi l0).
  Proof. intros row x Hr Hx. cbv zeta. destruct (fill_ok row Hr) as (_ & _ & C & _). exact (C x Hx). Qed.
  Lemma fill_labels row x : 0 <= row < rows s -> 0 <= x < cols s -> 0 <= fill s roi l0 (at_ row x) < nlabels s /\ (roi (at_ row x) = true -> fill s roi l0 (at_ row x) <> dontcare s).
  Proof. intros Hr Hx. destruct (fill_ok row Hr) as (_ & B & _ & D). split; [ now apply D |]. intro R. apply B; [ lia | exact R ]. Qed.
  Lemma fill_no_holes : no_holes s roi (fill s roi l0) = true.
  Proof.
    unfold no_holes. apply forallb_forall. intros i I. apply in_zrange in I. pose proof (Z.div_mod i (cols s) ltac:(lia)) as Dm. pose proof (Z.mod_pos_bound i (cols s) ltac:(lia)). assert (Q : 0 <= i / cols s < rows s) by (split; [ apply Z.div_pos; lia | apply Z.div_lt_upper_bound; lia ]).
    destruct (fill_labels (i / cols s) (i mod cols s) Q ltac:(lia)) as [_ F]. unfold StereoMoves.at_ in F. replace (i / cols s * cols s + i mod cols s) with i in F by lia. destruct (roi i); [| reflexivity ]. cbn [andb]. apply negb_true_iff, Z.eqb_neq. now apply F.
  Qed.
End Setup.

Lemma projection_ok s roi base : sound s -> (forall i, 0 <= base i) ->
  exists p f, project s roi base = Some p /\ projection s roi base = Some f /\
    (forall row x, 0 <= row < rows s -> 0 <= x < cols s -> (roi (row * cols s + x) = true -> nearest_surface s base row x (p (row * cols s + x))) /\ (roi (row * cols s + x) = false -> p (row * cols s + x) = dontcare s)) /\
    filled s roi (median s p) f /\
    (forall row x, 0 <= row < rows s -> 0 <= x < cols s -> 0 <= f (row * cols s + x) < nlabels s /\ (roi (row * cols s + x) = true -> f (row * cols s + x) <> dontcare s)).
Proof.
  intros S0 B0. destruct (project_ok s S0 roi base B0) as (p & E & P). exists p, (fill s roi (median s p)). split; [ exact E |].
  assert (Pr : forall row x, 0 <= row < rows s -> 0 <= x < cols s -> 0 <= p (at_ s row x) < nlabels s).
  { intros row x Hr Hx. destruct (P row Hr x Hx) as [P1 P2]. destruct (roi (at_ s row x)); [ apply (nearest_range s S0 base row x); now apply P1 |]. rewrite P2 by reflexivity. unfold nlabels, dontcare. destruct S0 as (_ & _ & _ & N & _). lia. }
  assert (M : forall row x, 0 <= row < rows s -> 0 <= x < cols s -> 0 <= median s p (at_ s row x) < nlabels s) by (intros row x _ _; destruct (median_in s S0 roi p (at_ s row x)) as (r & y & Hr & Hy & ->); now apply Pr).
  split; [ unfold projection; rewrite E; cbn [obind]; rewrite (fill_no_holes s S0 roi (median s p) M); reflexivity |]. split; [ intros row x Hr Hx; exact (P row Hr x Hx) |]. split; [ now apply fill_filled | intros row x Hr Hx; now apply (fill_labels s S0 roi (median s p) M row x) ].
Qed.

Lemma hole_right s roi l f row x : 1 <= maxd s -> filled s roi l f -> 0 <= row < rows s -> 0 <= x -> x + 1 < cols s -> roi (row * cols s + x) = true -> roi (row * cols s + (x + 1)) = true -> l (row * cols s + x) = dontcare s -> f (row * cols s + x) = f (row * cols s + (x + 1)).
Proof.
  intros M F Hr Hx Hx1 R R1 L. destruct (F row x Hr ltac:(lia)) as (_ & _ & H). specialize (H R L). assert (O : on_right s roi row x 1) by (split; [ lia | exact R1 ]). destruct H as [(o & Ho & Mn & Wh)|[Nn _]].
  - destruct (Z.eq_dec o 1) as [->|No]; [| exfalso; apply (proj1 (Mn 1 ltac:(lia))); exact O ]. destruct Wh as [[_ E]|[N _]]; [ exact E | contradiction ].
  - exfalso. apply (proj1 (Nn 1 ltac:(lia))). exact O.
Qed.
Lemma hole_run s roi l f row x n : 1 <= maxd s -> filled s roi l f -> 0 <= row < rows s -> 0 <= x -> 0 <= n -> x + n < cols s -> (forall c, x <= c <= x + n -> roi (row * cols s + c) = true) -> (forall c, x <= c < x + n -> l (row * cols s + c) = dontcare s) -> f (row * cols s + x) = f (row * cols s + (x + n)).
Proof.
  intros M F Hr Hx Hn. pattern n. apply natlike_ind; [ intros; now rewrite Z.add_0_r | | exact Hn ]. clear n Hn. intros n Hn IH Hc R L. rewrite IH; [| lia | intros c Q; apply R; lia | intros c Q; apply L; lia ]. replace (x + Z.succ n) with (x + n + 1) by lia. apply (hole_right s roi l f row (x + n) M F Hr); try lia; [ apply R; lia | apply R; lia | apply L; lia ].
Qed.

(* three pixels by three, and only the centre in the region *)
Definition small : setup := Setup 3 3 0 2 false (fun _ => true) (fun _ _ => 0) (fun _ => []) real_add (approx_rem real_add).
Lemma small_sound : sound small.
Proof. unfold sound. cbn [rows cols mind nreal cliques small]. repeat split; try lia. intros i c []. Qed.
Lemma median_erases : exists s roi base p f, sound s /\ (forall i, 0 <= base i < nlabels s) /\ project s roi base = Some p /\ projection s roi base = Some f /\
  exists row x, 0 <= row < rows s /\ 0 <= x < cols s /\ roi (row * cols s + x) = true /\ matched_by s base row x 1 /\ p (row * cols s + x) = 1 /\ ~ matched_by s base row x 0 /\ f (row * cols s + x) = 0.
Proof.
  set (base := fun i => if i =? 5 then 1 else 2). exists small, (fun i => i =? 4), base, (fun i => match project small (fun i => i =? 4) base with Some p => p i | None => 0 end), (fun i => match projection small (fun i => i =? 4) base with Some p => p i | None => 0 end).
  split; [ apply small_sound |]. split; [ intro i; unfold base, nlabels; cbn [nreal small]; destruct (i =? 5); lia |].
  assert (B0 : forall i, 0 <= base i) by (intro i; unfold base; destruct (i =? 5); lia). destruct (projection_ok small (fun i => i =? 4) base small_sound B0) as (p & f & E1 & E2 & _). split; [ rewrite E1; reflexivity |]. split; [ rewrite E2; reflexivity |].
  exists 1, 1. cbn [rows cols small]. split; [ lia |]. split; [ lia |]. split; [ reflexivity |]. split; [ exists 2; unfold target, base; cbn; repeat split; lia |]. split; [ vm_compute; reflexivity |]. split; [| vm_compute; reflexivity ].
  intros (x & Hx & _ & E & _). unfold base in E. destruct (1 * cols small + x =? 5); lia.
Qed.
Lemma left_occluded : exists s roi base f, sound s /\ (forall i, 0 <= base i < nlabels s) /\ projection s roi base = Some f /\
  exists row x, 0 <= row < rows s /\ 0 <= x < cols s /\ roi (row * cols s + x) = true /\ real_label s (f (row * cols s + x)) = Some occluded_label.
Proof.
  exists small, (fun _ => true), (fun _ => 2), (fun i => match projection small (fun _ => true) (fun _ => 2) with Some p => p i | None => 0 end).
  split; [ apply small_sound |]. split; [ intro i; unfold nlabels; cbn [nreal small]; lia |].
  assert (B0 : forall i : Z, 0 <= 2) by (intro; lia). destruct (projection_ok small (fun _ => true) (fun _ => 2) small_sound B0) as (p & f & E1 & E2 & _). split; [ rewrite E2; reflexivity |].
  exists 1, 1. cbn [rows cols small]. split; [ lia |]. split; [ lia |]. split; [ reflexivity |]. vm_compute. reflexivity.
Qed.

(* --- occlusions --- *)
Section Occlusions.
  Variable s : setup.
  Hypothesis S0 : sound s.
  Variable roi : Z -> bool.
  Variable base : Z -> Z.
  Hypothesis B0 : forall i, 0 <= base i.
  Let N0 : 1 <= nreal s <= 253. Proof. apply S0. Qed.
  Let D0 : 0 < rows s /\ 0 < cols s /\ 0 <= mind s. Proof. destruct S0 as (A & B & C & _). auto. Qed.
  Notation at_ := (StereoMoves.at_ s).

  Definition same_marks (l o : Z -> Z) : Prop := forall i, o i = if l i =? occluded s then 255 else 0.
  Lemma mark_step v row l o x : (forall j, 0 <= v j) -> same_marks l o -> l (at_ row x) = dontcare s -> same_marks (winner s roi v row l x) (mark s roi v row o x).
  Proof.
    intros V H Hx i. unfold winner, mark. cbv zeta. fold (at_ row x). destruct (roi (at_ row x)); [| apply H ].
    set (vs := map _ _). destruct (max_element vs) as [[k n]|] eqn:M.
    - destruct (max_element_spec _ _ _ M) as (Hk & E & _). assert (Kn : 0 <= k < nreal s) by (assert (L : (Z.to_nat k < length vs)%nat) by (apply nth_error_Some; congruence); unfold vs in L; rewrite map_length in L; unfold zrange in L; rewrite zseq_length in L; lia).
      unfold vs in E. rewrite nth_error_map, nth_zrange in E by exact Kn. cbn [option_map] in E. injection E as E. pose proof (V (vote_cell s (at_ row x) k)) as P. replace (v (vote_cell s (at_ row x) k)) with n in P by (rewrite <- E; reflexivity).
      destruct (Z.eqb_spec n 0) as [->|Nn].
      + change (0 <? 0) with false. cbv iota. unfold upd. destruct (i =? at_ row x); [ now rewrite Z.eqb_refl | apply H ].
      + replace (0 <? n) with true by lia. unfold upd. destruct (Z.eqb_spec i (at_ row x)) as [->|Ni]; [| apply H ]. rewrite (H (at_ row x)), Hx. unfold occluded, dontcare. replace (nreal s =? nreal s + 1) with false by lia. replace (nreal s - 1 - k =? nreal s + 1) with false by lia. reflexivity.
    - unfold upd. destruct (i =? at_ row x); [ now rewrite Z.eqb_refl | apply H ].
  Qed.
  Lemma winner_other v row l x i : i <> at_ row x -> winner s roi v row l x i = l i.
  Proof. intro N. unfold winner. cbv zeta. fold (at_ row x). destruct (roi (at_ row x)); [ now apply upd_other | reflexivity ]. Qed.
  Lemma mark_fold v row : (forall j, 0 <= v j) -> forall X l o, NoDup X -> (forall x, In x X -> 0 <= x < cols s /\ l (at_ row x) = dontcare s) -> same_marks l o ->
    same_marks (fold_left (winner s roi v row) X l) (fold_left (mark s roi v row) X o) /\ forall i, (forall x, In x X -> i <> at_ row x) -> fold_left (winner s roi v row) X l i = l i.
  Proof.
    intro V. induction X as [|x X IH]; intros l o N H R; cbn [fold_left]; [ auto |]. apply NoDup_cons_iff in N. destruct N as [Nx N]. destruct (H x (or_introl eq_refl)) as [Hx Lx].
    destruct (IH (winner s roi v row l x) (mark s roi v row o x) N) as [R' K].
    - intros y Iy. destruct (H y (or_intror Iy)) as [Hy Ly]. split; [ exact Hy |]. rewrite winner_other; [ exact Ly |]. unfold StereoMoves.at_. intro E. assert (y = x) by lia. subst. contradiction.
    - now apply mark_step.
    - split; [ exact R' |]. intros i Hi. rewrite K by (intros y Iy; apply Hi; now right). apply winner_other, Hi. now left.
  Qed.
  Lemma mark_rows : forall L v l o, NoDup L -> (forall r, In r L -> 0 <= r < rows s /\ forall x, 0 <= x < cols s -> l (at_ r x) = dontcare s) -> (forall j, 0 <= v j) -> same_marks l o ->
    exists v' l' o', ofold (project_row s roi base) L (v, l) = Some (v', l') /\ ofold (mark_row s roi base) L (v, o) = Some (v', o') /\ same_marks l' o'.
  Proof.
    induction L as [|r L IH]; intros v l o N H V R; cbn [ofold]; [ exists v, l, o; auto |]. apply NoDup_cons_iff in N. destruct N as [Nr N]. destruct (H r (or_introl eq_refl)) as [Hr Lr].
    unfold project_row at 1, mark_row at 1. cbn [fst snd]. destruct (votes_ok s roi base B0 r (zrange 0 (cols s)) Hr) with (v := v) as (v1 & -> & E1); [ intros x I; apply in_zrange in I; lia |]. cbn [obind].
    assert (V1 : forall j, 0 <= v1 j) by (intro j; rewrite E1; specialize (V j); unfold count; lia).
    destruct (mark_fold v1 r V1 (zrange 0 (cols s)) l o (nodup_zseq _ _)) as [R1 K1]; [ intros x I; apply in_zrange in I; split; [ lia | apply Lr; lia ] | exact R |].
    apply (IH v1 _ _ N); [| exact V1 | exact R1 ]. intros q Iq. destruct (H q (or_intror Iq)) as [Hq Lq]. split; [ exact Hq |]. intros x Hx. rewrite K1; [ now apply Lq |]. intros y Iy E. apply in_zrange in Iy. unfold StereoMoves.at_ in E. apply flat_inj in E; [| lia | lia ]. destruct E as [E _]. subst. contradiction.
  Qed.
  Lemma marks_ok : exists o, marks s roi base = Some o /\ forall row x, 0 <= row < rows s -> 0 <= x < cols s ->
    (o (at_ row x) = 0 \/ o (at_ row x) = 255) /\ (o (at_ row x) = 255 <-> roi (at_ row x) = true /\ unmatched s base row x).
  Proof.
    destruct (mark_rows (zrange 0 (rows s)) (fun _ => 0) (fun _ => dontcare s) (fun _ => 0) (nodup_zseq _ _)) as (v & l & o & E & F & R).
    - intros r I. apply in_zrange in I. split; [ lia | reflexivity ].
    - intro. lia.
    - intro i. unfold occluded, dontcare. now replace (nreal s =? nreal s + 1) with false by lia.
    - exists o. unfold marks. rewrite F. split; [ reflexivity |]. intros row x Hr Hx. destruct (project_ok s S0 roi base B0) as (l' & E' & D). unfold project in E'. rewrite E in E'. cbn [obind snd] in E'. injection E' as <-.
      specialize (R (at_ row x)). destruct (D row Hr x Hx) as [D1 D2]. split; [ rewrite R; destruct (l (at_ row x) =? occluded s); auto |]. rewrite R. destruct (roi (at_ row x)) eqn:Q.
      + destruct (D1 eq_refl) as [[M _]|[U E1]].
        * destruct (Z.eqb_spec (l (at_ row x)) (occluded s)) as [X|X].
          -- exfalso. rewrite X in M. destruct M as (y & _ & B & _). unfold occluded in B. lia.
          -- split; [ lia |]. intros [_ U]. destruct (U _ M).
        * rewrite E1. unfold occluded. rewrite Z.eqb_refl. split; auto.
      + rewrite (D2 eq_refl). unfold occluded, dontcare. replace (nreal s =? nreal s + 1) with false by lia. split; [ lia | intros [X _]; discriminate ].
  Qed.
End Occlusions.

(* the median of zeros and 255s is what the majority is *)
Lemma insert_zero a b : insert 0 (repeat 0 a ++ repeat 255 b) = repeat 0 (S a) ++ repeat 255 b.
Proof. destruct a as [|a]; [ destruct b; reflexivity | reflexivity ]. Qed.
Lemma insert_255 a b : insert 255 (repeat 0 a ++ repeat 255 b) = repeat 0 a ++ repeat 255 (S b).
Proof. induction a as [|a IH]; [ destruct b; reflexivity |]. cbn [repeat app insert]. change (255 <=? 0) with false. cbv iota. now rewrite IH. Qed.
Lemma sort_two l : Forall (fun x => x = 0 \/ x = 255) l -> exists a b, sort l = repeat 0 a ++ repeat 255 b /\ (a + b = length l)%nat /\ Z.of_nat b = count (Z.eqb 255) l.
Proof.
  induction 1 as [|x l Hx _ (a & b & E & L & C)]; [ exists O, O; auto |]. cbn [sort fold_right]. fold (sort l). rewrite E, Grid.count_cons. destruct Hx as [->| ->].
  - exists (S a), b. rewrite insert_zero. cbn. split; [ reflexivity |]. split; [ lia | exact C ].
  - exists a, (S b). rewrite insert_255. cbn [length]. rewrite Z.eqb_refl, <- C. split; [ reflexivity |]. split; lia.
Qed.
Lemma middle l : Forall (fun x => x = 0 \/ x = 255) l -> length l = 25%nat -> (nth 12 (sort l) 0 = 0 \/ nth 12 (sort l) 0 = 255) /\ (nth 12 (sort l) 0 = 255 <-> 13 <= count (Z.eqb 255) l).
Proof.
  intros F L. destruct (sort_two l F) as (a & b & E & N & C). rewrite E, <- C. destruct (Nat.lt_ge_cases 12 a) as [A|A].
  - rewrite app_nth1 by (rewrite repeat_length; exact A). rewrite nth_repeat. split; [ auto |]. lia.
  - rewrite app_nth2 by (rewrite repeat_length; exact A). rewrite repeat_length. rewrite (nth_indep _ 0 255) by (rewrite repeat_length; lia). rewrite nth_repeat. split; [ auto |]. lia.
Qed.
Lemma count_map {A B} (f : A -> B) p l : count p (map f l) = count (fun x => p (f x)) l.
Proof. induction l as [|a l IH]; [ reflexivity |]. cbn [map]. now rewrite !Grid.count_cons, IH. Qed.
Lemma occlusions_ok s roi base : sound s -> (forall i, 0 <= base i) -> exists o f, marks s roi base = Some o /\ occlusions s roi base = Some f /\
  (forall row x, 0 <= row < rows s -> 0 <= x < cols s -> (o (row * cols s + x) = 255 <-> roi (row * cols s + x) = true /\ unmatched s base row x)) /\
  (forall row x, 0 <= row < rows s -> 0 <= x < cols s -> (f (row * cols s + x) = 0 \/ f (row * cols s + x) = 255) /\ (f (row * cols s + x) = 255 <-> 13 <= around s (fun i => 255 =? o i) row x)).
Proof.
  intros S0 B0. destruct (marks_ok s S0 roi base B0) as (o & E & H). exists o, (median5 s o). unfold occlusions. rewrite E. split; [ reflexivity |]. split; [ reflexivity |]. assert (D0 : 0 < rows s /\ 0 < cols s) by (destruct S0 as (A & B & _); auto). split.
  - intros row x Hr Hx. now apply H.
  - intros row x Hr Hx. unfold median5. unfold row_of, col_of. rewrite (Z.div_add_l row (cols s) x) by lia. rewrite (Z.div_small x (cols s)), Z.add_0_r by lia. rewrite Z.add_comm, Z_mod_plus_full, Z.mod_small by lia.
    set (ws := map _ _). destruct (middle ws) as [A B].
    + apply Forall_forall. intros w I. unfold ws in I. apply in_map_iff in I. destruct I as (rc & <- & _). apply H; apply clamp_range; lia.
    + unfold ws, grid. rewrite map_length, prod_len. unfold zrange. rewrite !zseq_length. reflexivity.
    + split; [ exact A |]. rewrite B. unfold ws, around. now rewrite count_map.
Qed.
(* a single pixel that nothing is matched to is not marked *)
Definition five : setup := Setup 1 5 0 1 false (fun _ => true) (fun _ _ => 0) (fun _ => []) real_add (approx_rem real_add).
Lemma five_sound : sound five.
Proof. unfold sound. cbn [rows cols mind nreal cliques five]. repeat split; try lia. intros i c []. Qed.
Lemma lone_occlusion : exists s roi base f, sound s /\ (forall i, 0 <= base i < nlabels s) /\ occlusions s roi base = Some f /\
  exists row x, 0 <= row < rows s /\ 0 <= x < cols s /\ roi (row * cols s + x) = true /\ unmatched s base row x /\ f (row * cols s + x) = 0.
Proof.
  set (base := fun i => if i =? 2 then 1 else 0). assert (B : forall i, 0 <= base i < nlabels five) by (intro i; unfold base, nlabels; cbn [nreal five]; destruct (i =? 2); lia).
  exists five, (fun _ => true), base, (fun i => match occlusions five (fun _ => true) base with Some f => f i | None => 1 end). split; [ exact five_sound |]. split; [ exact B |].
  destruct (occlusions_ok five (fun _ => true) base five_sound (fun i => proj1 (B i))) as (o & f & E1 & E2 & _). split; [ rewrite E2; reflexivity |]. exists 0, 2. cbn [rows cols five]. split; [ lia |]. split; [ lia |]. split; [ reflexivity |]. split; [| vm_compute; reflexivity ].
  intros l (x & Hx & Hl & E & T). unfold base in E. unfold target in T. cbn in Hx, Hl, E, T. destruct (Z.eqb_spec x 2) as [->|N]; lia.
Qed.
