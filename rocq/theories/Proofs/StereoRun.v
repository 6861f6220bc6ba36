(* Fusion moves of Model.StereoMoves keep the buffers right. *)
From Coq Require Import ZArith List Bool Lia Permutation.
From Verif Require Import Lib.Grid Model.FusionTerms Spec.FusionTerms Proofs.FusionTerms Model.StereoMoves Spec.StereoMoves Proofs.StereoMoves.
Import ListNotations.
Local Open Scope Z_scope.

Lemma in_numbered (l : list Z) : forall a k i, In (k, i) (combine (zrange a (Z.of_nat (length l))) l) <-> a <= k /\ nth_error l (Z.to_nat (k - a)) = Some i.
Proof.
  unfold zrange. setoid_rewrite Nat2Z.id. induction l as [|b l IH]; intros a k i; cbn [length combine].
  - split; [ intros [] |]. intros [_ H]. destruct (Z.to_nat (k - a)); discriminate H.
  - rewrite zseq_S. cbn [combine In]. rewrite IH. split.
    + intros [E|[H E]].
      * injection E as <- <-. split; [ lia |]. now rewrite Z.sub_diag.
      * split; [ lia |]. replace (Z.to_nat (k - a)) with (S (Z.to_nat (k - (a + 1)))) by lia. exact E.
    + intros [H E]. destruct (Z.eq_dec k a) as [->|N].
      * rewrite Z.sub_diag in E. cbn in E. injection E as <-. now left.
      * right. split; [ lia |]. replace (Z.to_nat (k - a)) with (S (Z.to_nat (k - (a + 1)))) in E by lia. exact E.
Qed.
Lemma numbered_snd {A} (l : list A) a : map snd (combine (zrange a (Z.of_nat (length l))) l) = l.
Proof. unfold zrange. rewrite Nat2Z.id. revert a. induction l as [|b l IH]; intro a; [ reflexivity |]. cbn [length]. rewrite zseq_S. cbn [combine map snd]. now rewrite IH. Qed.

Lemma wta_spec u n : 1 <= n -> 0 <= wta u n < n /\ (forall l, 0 <= l < n -> u (wta u n) <= u l) /\ (forall l, 0 <= l < wta u n -> u (wta u n) < u l).
Proof.
  intro H. unfold wta. 
  assert (G : forall k, (k < Z.to_nat n)%nat -> let b := fold_left (fun best l => if u l <? snd best then (l, u l) else best) (zseq 1 k) (0, u 0) in
    snd b = u (fst b) /\ 0 <= fst b <= Z.of_nat k /\ (forall l, 0 <= l <= Z.of_nat k -> snd b <= u l) /\ (forall l, 0 <= l < fst b -> snd b < u l)).
  { induction k as [|k IH]; intros Hk b.
    - unfold b. cbn. repeat split; try lia. intros l Hl. replace l with 0 by lia. lia.
    - specialize (IH ltac:(lia)). cbv zeta in IH. unfold b. clear b. replace (S k) with (k + 1)%nat by lia. rewrite zseq_app, fold_left_app. set (b := fold_left _ (zseq 1 k) _) in *. change (zseq (1 + Z.of_nat k) 1) with [1 + Z.of_nat k + Z.of_nat 0]. cbn [fold_left]. destruct IH as (I1 & I2 & I3 & I4).
      replace (1 + Z.of_nat k + Z.of_nat 0) with (Z.of_nat (k + 1)) by lia. destruct (u (Z.of_nat (k + 1)) <? snd b) eqn:E; cbn [fst snd].
      + split; [ reflexivity |]. split; [ lia |]. split.
        * intros l Hl. destruct (Z.eq_dec l (Z.of_nat (k + 1))) as [->|N]; [ lia |]. specialize (I3 l ltac:(lia)). lia.
        * intros l Hl. specialize (I3 l ltac:(lia)). lia.
      + split; [ exact I1 |]. split; [ lia |]. split; [| exact I4 ]. intros l Hl. destruct (Z.eq_dec l (Z.of_nat (k + 1))) as [->|N]; [ lia |]. apply I3. lia. }
  specialize (G (Z.to_nat (n - 1)) ltac:(lia)). cbv zeta in G. unfold zrange. destruct G as (I1 & I2 & I3 & I4). rewrite <- I1. split; [ lia |]. split; [| exact I4 ]. intros l Hl. apply I3. lia.
Qed.

Section Setup.
  Variable s : setup.
  Hypothesis S0 : sound s.
  Let N0 : 1 <= nreal s <= 253. Proof. apply S0. Qed.

  Lemma graph_pixels : graph s = pixels s. Proof. reflexivity. Qed.
  Lemma nodup_pixels : NoDup (pixels s). Proof. apply NoDup_filter, nodup_zseq. Qed.

  Definition unreal (v : Z) : Prop := ~ 0 <= v < nreal s.
  Lemma inv_unreal l l' a : (forall j, In j (pixels s) -> l j = l' j \/ (unreal (l j) /\ unreal (l' j))) -> inv s l a -> inv s l' a.
  Proof.
    intros H I row c Hr Hc. destruct (I row c Hr Hc) as [Ic Il]. split.
    - rewrite Ic. apply count_ext. intros x Ix. apply in_zrange in Ix. unfold hits. destruct (inside s (row * cols s + x)) eqn:Ei; [| reflexivity ].
      destruct (H (row * cols s + x)) as [E|[U U']]; [ apply (in_pixels s S0); split; [ apply flat_bound; lia | exact Ei ] | now rewrite E |]. cbn [andb].
      assert (F : forall v, unreal v -> (0 <=? v) && (v <? nreal s) = false) by (intros v Uv; apply andb_false_iff; unfold unreal in Uv; destruct (0 <=? v) eqn:A; [ right; lia | now left ]). now rewrite !F.
    - intros k Hk. rewrite (Il k Hk). unfold origin. set (x := if second s then c - (mind s + k) else c + (mind s + k)). destruct (0 <=? x) eqn:A1; [| reflexivity ]. destruct (x <? cols s) eqn:A2; [| reflexivity ]. destruct (inside s (at_ s row x)) eqn:Ei; [| reflexivity ]. cbn [andb].
      destruct (H (at_ s row x)) as [E|[U U']]; [ apply (in_pixels s S0); split; [ apply flat_bound; lia | exact Ei ] | now rewrite E |]. unfold unreal in *. destruct (l (at_ s row x) =? k) eqn:B1; [ lia |]. destruct (l' (at_ s row x) =? k) eqn:B2; [ lia | reflexivity ].
  Qed.

  Definition good (st : state) : Prop := inv s (lab st) (asc st) /\ labelled s (lab st).

  Lemma relabel_ok st i alpha : good st -> In i (pixels s) -> 0 <= alpha < nlabels s ->
    exists st', relabel s alpha st i = Some st' /\ good st' /\ lab st' = upd (lab st) i alpha.
  Proof.
    intros [I Lb] Ii Ha. destruct (pixel_of s S0 i Ii) as [P Ei]. unfold relabel, nlabels, dontcare in *. set (row := row_of s i) in *. set (x := col_of s i) in *.
    assert (G : exists a, (if lab st i <? nreal s then remove_assoc s (asc st) row x (lab st i) else Some (asc st)) = Some a /\ inv s (upd (lab st) i (nreal s)) a).
    { pose proof (Lb i Ii) as Li. unfold nlabels in Li. destruct (lab st i <? nreal s) eqn:E.
      - destruct (remove_ok s S0 (lab st) (asc st) row x (lab st i) P) as (a & Ea & Ia); [ now rewrite Ei | lia | exact I |]. exists a. rewrite Ei in Ia. split; [ exact Ea | exact Ia ].
      - exists (asc st). split; [ reflexivity |]. apply (inv_unreal (lab st)); [| exact I ]. intros j _. destruct (Z.eq_dec j i) as [->|N]; [ right; rewrite upd_same; unfold unreal; lia | left; now rewrite upd_other ]. }
    destruct G as (a & -> & Ia). cbn [obind]. 
    assert (G : exists a', (if alpha <? nreal s then add_assoc s a row x alpha else Some a) = Some a' /\ inv s (upd (lab st) i alpha) a').
    { destruct (alpha <? nreal s) eqn:E.
      - destruct (add_ok s S0 (upd (lab st) i (nreal s)) a row x alpha P) as (a' & Ea & Ia'); [ rewrite Ei, upd_same; lia | lia | exact Ia |]. exists a'. split; [ exact Ea |]. rewrite Ei in Ia'. apply (inv_unreal (upd (upd (lab st) i (nreal s)) i alpha)); [| exact Ia' ]. intros j _. left. unfold upd. destruct (j =? i); reflexivity.
      - exists a. split; [ reflexivity |]. apply (inv_unreal (upd (lab st) i (nreal s))); [| exact Ia ]. intros j _. destruct (Z.eq_dec j i) as [->|N]; [ right; rewrite !upd_same; unfold unreal; lia | left; now rewrite !upd_other ]. }
    destruct G as (a' & -> & Ia'). cbn [obind]. eexists. split; [ reflexivity |]. cbn [lab asc]. split; [| reflexivity ]. split; [ exact Ia' |]. cbn [lab]. intros j Ij. destruct (Z.eq_dec j i) as [->|N]; [ rewrite upd_same; unfold nlabels; lia | rewrite upd_other by exact N; now apply Lb ].
  Qed.

  Definition taken (x : Z -> Z) (L : list (Z * Z)) (j : Z) : bool := existsb (fun ki => (snd ki =? j) && (x (fst ki) =? 1)) L.
  Lemma moves_ok alpha x L : 0 <= alpha < nlabels s -> (forall ki, In ki L -> In (snd ki) (pixels s)) -> forall st, good st ->
    exists st', ofold (fun st ki => if x (fst ki) =? 1 then relabel s alpha st (snd ki) else Some st) L st = Some st' /\ good st' /\ forall j, lab st' j = if taken x L j then alpha else lab st j.
  Proof.
    intro Ha. induction L as [|[k i] L IH]; intros HL st G; cbn [ofold].
    - exists st. split; [ reflexivity |]. split; [ exact G | reflexivity ].
    - cbn [fst snd]. destruct (x k =? 1) eqn:Ex.
      + destruct (relabel_ok st i alpha G (HL _ (or_introl eq_refl)) Ha) as (st1 & -> & G1 & E1). cbn [obind]. destruct (IH (fun ki I => HL ki (or_intror I)) st1 G1) as (st' & -> & G' & E'). exists st'. split; [ reflexivity |]. split; [ exact G' |]. intro j. rewrite E', E1. unfold taken. cbn [existsb fst snd]. rewrite Ex, andb_true_r. unfold upd. rewrite (Z.eqb_sym i j). destruct (j =? i); cbn [orb]; destruct (existsb _ L); reflexivity.
      + cbn [obind]. destruct (IH (fun ki I => HL ki (or_intror I)) st G) as (st' & -> & G' & E'). exists st'. split; [ reflexivity |]. split; [ exact G' |]. intro j. rewrite E'. unfold taken. cbn [existsb fst snd]. now rewrite Ex, andb_false_r.
  Qed.

  Definition numbered : list (Z * Z) := combine (zrange 0 (Z.of_nat (length (graph s)))) (graph s).
  Lemma numbered_in k i : In (k, i) numbered <-> 0 <= k /\ nth_error (pixels s) (Z.to_nat k) = Some i.
  Proof. unfold numbered. rewrite in_numbered, Z.sub_0_r. reflexivity. Qed.
  Lemma numbered_pixel ki : In ki numbered -> In (snd ki) (pixels s).
  Proof. destruct ki as [k i]. intro I. apply numbered_in in I. cbn [snd]. destruct I as [_ I]. now apply nth_error_In in I. Qed.
  Lemma taken_chosen x j : taken x numbered j = true <-> chosen s x j.
  Proof.
    unfold taken, chosen. rewrite existsb_exists. split.
    - intros ((k & i) & I & E). apply andb_true_iff in E. cbn [fst snd] in E. destruct E as [E1 E2]. apply Z.eqb_eq in E1, E2. subst i. apply numbered_in in I. exists k. tauto.
    - intros (k & Hk & E & Ex). exists (k, j). split; [ apply numbered_in; auto |]. cbn [fst snd]. now rewrite Z.eqb_refl, Ex.
  Qed.

  Lemma move_ok st alpha x : good st -> 0 <= alpha < nlabels s ->
    exists st', move s st alpha x = Some st' /\ good st' /\ (forall j, lab st' j = if taken x numbered j then alpha else lab st j).
  Proof. intros G Ha. unfold move. apply moves_ok; [ exact Ha | apply numbered_pixel | exact G ]. Qed.
  Lemma move_moved st st' alpha x : good st -> 0 <= alpha < nlabels s -> move s st alpha x = Some st' -> moved s alpha x (lab st) (lab st').
  Proof.
    intros G Ha E. destruct (move_ok st alpha x G Ha) as (st1 & E1 & _ & H). rewrite E in E1. injection E1 as <-. intro i. rewrite H. rewrite <- taken_chosen. destruct (taken x numbered i); split; intro X; try reflexivity; [ contradiction X; reflexivity | discriminate X ].
  Qed.

  (* the initial labeling *)
  Definition start (warped : option (Z -> Z)) (i : Z) : Z := match warped with Some w => if inside s i then w i else dontcare s | None => dontcare s end.
  Definition first_labels (warped : option (Z -> Z)) : Z -> Z :=
    fold_left (fun l i => if l i =? dontcare s then upd l i (wta (unary s i) (nlabels s)) else l) (graph s) (start warped).
  Lemma first_labels_is warped j : first_labels warped j = if existsb (Z.eqb j) (pixels s) && (start warped j =? dontcare s) then wta (unary s j) (nlabels s) else start warped j.
  Proof.
    unfold first_labels. rewrite graph_pixels. generalize (start warped). generalize nodup_pixels. generalize (pixels s). intros L N. induction N as [|i L Ni N IH]; intro l; cbn [fold_left existsb]; [ reflexivity |]. rewrite IH. clear IH.
    destruct (Z.eq_dec j i) as [->|Nj].
    - assert (X : existsb (Z.eqb i) L = false) by (destruct (existsb (Z.eqb i) L) eqn:E; [| reflexivity ]; apply existsb_exists in E; destruct E as (y & Iy & Ey); apply Z.eqb_eq in Ey; subst y; contradiction). rewrite X, Z.eqb_refl. cbn [orb andb]. destruct (l i =? dontcare s); [ now rewrite upd_same | reflexivity ].
    - assert (X : (j =? i) = false) by now apply Z.eqb_neq. rewrite X. cbn [orb]. destruct (l i =? dontcare s); [ rewrite upd_other by exact Nj |]; reflexivity.
  Qed.
  Definition warped_ok (warped : option (Z -> Z)) : Prop := match warped with Some w => forall i, In i (pixels s) -> 0 <= w i < nlabels s | None => True end.
  Lemma first_labels_ok warped : warped_ok warped -> labelled s (first_labels warped).
  Proof.
    intros H j Ij. rewrite first_labels_is. assert (X : existsb (Z.eqb j) (pixels s) = true) by (apply existsb_exists; exists j; split; [ exact Ij | apply Z.eqb_refl ]). rewrite X. cbn [andb].
    destruct (start warped j =? dontcare s) eqn:E; [ apply wta_spec; unfold nlabels; lia |]. unfold start in *. destruct warped as [w|]; [| rewrite Z.eqb_refl in E; discriminate E ]. pose proof Ij as Ij'. apply (in_pixels s S0) in Ij'. destruct Ij' as [_ Ei]. rewrite Ei. now apply H.
  Qed.
  Lemma build_ok l L : NoDup L -> (forall i, In i L -> In i (pixels s)) -> (forall i, In i L -> 0 <= l i < nlabels s) -> forall lp a, inv s lp a -> (forall i, In i L -> unreal (lp i)) ->
    exists a', ofold (fun a i => if l i <? dontcare s then add_assoc s a (row_of s i) (col_of s i) (l i) else Some a) L a = Some a' /\ inv s (fun j => if existsb (Z.eqb j) L then l j else lp j) a'.
  Proof.
    intro N. induction N as [|i L Ni N IH]; intros HL Hl lp a I U; cbn [ofold].
    - exists a. split; [ reflexivity | exact I ].
    - destruct (pixel_of s S0 i (HL i (or_introl eq_refl))) as [P Ei]. pose proof (Hl i (or_introl eq_refl)) as Hi. unfold nlabels in Hi.
      assert (G : exists a1, (if l i <? dontcare s then add_assoc s a (row_of s i) (col_of s i) (l i) else Some a) = Some a1 /\ inv s (upd lp i (l i)) a1).
      { unfold dontcare. destruct (l i <? nreal s) eqn:E.
        - destruct (add_ok s S0 lp a (row_of s i) (col_of s i) (l i) P) as (a1 & E1 & I1); [ rewrite Ei; apply U; now left | lia | exact I |]. exists a1. rewrite Ei in I1. auto.
        - exists a. split; [ reflexivity |]. apply (inv_unreal lp); [| exact I ]. intros j _. destruct (Z.eq_dec j i) as [->|Nj]; [ right; rewrite upd_same; split; [ apply U; now left | unfold unreal; lia ] | left; now rewrite upd_other ]. }
      destruct G as (a1 & -> & I1). cbn [obind]. destruct (IH (fun j Ij => HL j (or_intror Ij)) (fun j Ij => Hl j (or_intror Ij)) (upd lp i (l i)) a1 I1) as (a' & E' & I').
      { intros j Ij. rewrite upd_other by (intro; subst; contradiction). apply U. now right. }
      exists a'. split; [ exact E' |]. apply (inv_unreal (fun j => if existsb (Z.eqb j) L then l j else upd lp i (l i) j)); [| exact I' ]. intros j _. left. cbn [existsb]. unfold upd. destruct (j =? i) eqn:E; cbn [orb]; [| reflexivity ]. apply Z.eqb_eq in E. subst j. destruct (existsb (Z.eqb i) L); reflexivity.
  Qed.
  Lemma empty_inv : inv s (fun _ => nreal s) (Assoc (fun _ => 0) (fun _ => -1)).
  Proof.
    intros row c Hr Hc. cbn [cnt lst]. split.
    - unfold matched, count. rewrite filter_none; [ reflexivity |]. intros x _. destruct (hits s (fun _ => nreal s) row c x) eqn:E; [| reflexivity ]. apply hits_real in E; [ lia | exact S0 ].
    - intros k Hk. unfold origin. destruct (nreal s =? k) eqn:E; [ lia |]. now rewrite andb_false_r.
  Qed.
  Lemma reset_ok warped : warped_ok warped -> exists st, reset s warped = Some st /\ good st /\ forall j, lab st j = first_labels warped j.
  Proof.
    intro W. pose proof (first_labels_ok warped W) as Lb. unfold reset. cbv zeta. change (fold_left _ (graph s) _) with (first_labels warped).
    destruct (build_ok (first_labels warped) (pixels s) nodup_pixels (fun i I => I) Lb (fun _ => nreal s) (Assoc (fun _ => 0) (fun _ => -1)) empty_inv) as (a & E & I); [ intros i _; unfold unreal; lia |].
    rewrite graph_pixels, E. cbn [obind]. eexists. split; [ reflexivity |]. cbn [lab asc]. split; [| reflexivity ]. split; [| exact Lb ]. cbn [lab asc].
    apply (inv_unreal (fun j => if existsb (Z.eqb j) (pixels s) then first_labels warped j else nreal s)); [| exact I ]. intros j Ij. left. assert (X : existsb (Z.eqb j) (pixels s) = true) by (apply existsb_exists; exists j; split; [ exact Ij | apply Z.eqb_refl ]). now rewrite X.
  Qed.

  Lemma good_counted st : good st -> counted s st.
  Proof. intros [I _] row c Hr Hc. apply (column_reachable s) in Hc. rewrite get_count_is by assumption. f_equal. now apply I. Qed.
  Lemma good_listed st : good st -> listed s st.
  Proof.
    intros [I _] row c l Hr Hc Hl. apply (column_reachable s) in Hc. destruct (I row c Hr Hc) as [_ Il]. rewrite (Il l Hl). split.
    - intros x Hx Hh El. apply (hits_real s S0) in Hh. destruct Hh as (Hi & Hv & <-). unfold at_ in *. rewrite El. rewrite origin_at; unfold at_; auto. now rewrite El, Z.eqb_refl.
    - intro H. unfold origin. set (x := if second s then c - (mind s + l) else c + (mind s + l)). destruct (0 <=? x) eqn:A1; [| reflexivity ]. destruct (x <? cols s) eqn:A2; [| reflexivity ]. destruct (inside s (at_ s row x)) eqn:Ei; [| reflexivity ]. destruct (lab st (at_ s row x) =? l) eqn:El; [| reflexivity ]. apply Z.eqb_eq in El. exfalso. apply (H x); [ lia | | exact El ].
      apply (hits_real s S0). split; [ exact Ei |]. rewrite El. split; [ exact Hl |]. unfold target, x. destruct (second s); lia.
  Qed.
End Setup.
