From Coq Require Import ZArith Reals List Bool Lia Lra Permutation.
From Verif Require Import Lib.Grid Model.Affinity Spec.Affinity.
Import ListNotations.
Open Scope Z_scope.

(** sums *)
Lemma sum_cons {A} (f : A -> R) a l : sum f (a :: l) = (f a + sum f l)%R. Proof. reflexivity. Qed.
Lemma sum_ext {A} (f g : A -> R) l : (forall x, In x l -> f x = g x) -> sum f l = sum g l.
Proof. induction l as [|a l IH]; intro H; [ reflexivity |]. rewrite !sum_cons. rewrite (H a) by now left. rewrite IH; [ reflexivity |]. intros. apply H. now right. Qed.
Lemma sum_perm {A} (f : A -> R) l m : Permutation l m -> sum f l = sum f m.
Proof. induction 1; rewrite ?sum_cons; try lra. Qed.
Lemma sum_map {A B} (g : A -> B) (f : B -> R) l : sum f (map g l) = sum (fun x => f (g x)) l.
Proof. induction l as [|a l IH]; [ reflexivity |]. cbn [map]. now rewrite !sum_cons, IH. Qed.
Lemma sum_nonneg {A} (f : A -> R) l : (forall x, In x l -> (0 <= f x)%R) -> (0 <= sum f l)%R.
Proof. induction l as [|a l IH]; intro H; [ cbn; lra |]. rewrite sum_cons. pose proof (H a (or_introl eq_refl)). assert (0 <= sum f l)%R by (apply IH; intros; apply H; now right). lra. Qed.
Lemma sum_zero {A} (f : A -> R) l : (forall x, In x l -> (0 <= f x)%R) -> sum f l = 0%R -> forall x, In x l -> f x = 0%R.
Proof.
  induction l as [|a l IH]; intros H E x X; [ destruct X |]. rewrite sum_cons in E. pose proof (H a (or_introl eq_refl)).
  assert (P : forall y, In y l -> (0 <= f y)%R) by (intros; apply H; now right). pose proof (sum_nonneg f l P).
  destruct X as [<-|X]; [ lra |]. apply IH; auto. lra.
Qed.
Lemma sum_fold {A} (f : A -> R) l : forall s, fold_left (fun s x => (s + f x)%R) l s = (s + sum f l)%R.
Proof. induction l as [|a l IH]; intro s; cbn [fold_left]; [ cbn; lra |]. rewrite IH, sum_cons. lra. Qed.
Lemma sum_bound {A} (f : A -> R) l lo hi : (forall x, In x l -> (lo <= f x <= hi)%R) -> (INR (length l) * lo <= sum f l <= INR (length l) * hi)%R.
Proof.
  induction l as [|a l IH]; intro H; [ cbn; lra |]. rewrite sum_cons. cbn [length]. rewrite S_INR.
  pose proof (H a (or_introl eq_refl)). assert (Q : forall x, In x l -> (lo <= f x <= hi)%R) by (intros; apply H; now right). specialize (IH Q). lra.
Qed.
Lemma average_bound {A} (f : A -> R) l lo hi : l <> [] -> (forall x, In x l -> (lo <= f x <= hi)%R) -> (lo <= average f l <= hi)%R.
Proof.
  intros N H. pose proof (sum_bound f l lo hi H) as B. assert (P : (0 < INR (length l))%R) by (apply lt_0_INR; destruct l; [ easy | cbn; lia ]). unfold average.
  split; [ apply Rmult_le_reg_r with (INR (length l)) | apply Rmult_le_reg_r with (INR (length l)) ]; try exact P; unfold Rdiv; rewrite Rmult_assoc, Rinv_l by lra; lra.
Qed.

(** writes *)
Lemma cell_eqb_spec a b : cell_eqb a b = true <-> a = b.
Proof.
  destruct a as ((a & b0) & k), b as ((c & d) & j). unfold cell_eqb. cbn. rewrite !andb_true_iff, !Z.eqb_eq, Nat.eqb_eq. split; [ intros ((-> & ->) & ->); reflexivity | intro E; injection E; auto ].
Qed.
Lemma put_same m i v : put m i v i = v.
Proof. unfold put. now rewrite (proj2 (cell_eqb_spec i i)). Qed.
Lemma put_other m i v j : j <> i -> put m i v j = m j.
Proof. intro N. unfold put. destruct (cell_eqb j i) eqn:E; [ apply cell_eqb_spec in E; contradiction | reflexivity ]. Qed.
Lemma writes_none {A} (step : affmap -> A -> affmap) (j : cell) l : (forall m i, In i l -> step m i j = m j) -> forall m, fold_left step l m j = m j.
Proof. induction l as [|a l IH]; intros H m; [ reflexivity |]. cbn. rewrite IH by (intros; apply H; now right). apply H. now left. Qed.
Lemma writes_one {A} (step : affmap -> A -> affmap) (j : cell) l a v : In a l -> (forall m, step m a j = v) ->
  (forall m i, In i l -> step m i j = m j \/ step m i j = v) -> forall m, fold_left step l m j = v.
Proof.
  intros I V H. assert (K : forall l', (forall m i, In i l' -> step m i j = m j \/ step m i j = v) -> forall m, m j = v -> fold_left step l' m j = v).
  { induction l' as [|b l' IH]; intros G m E; [ exact E |]. cbn. apply IH; [ intros; apply G; now right |]. destruct (G m b (or_introl eq_refl)); congruence. }
  induction l as [|b l IH]; intro m; [ destruct I |]. cbn. destruct I as [->|I].
  - apply K; [ intros; apply H; now right | apply V ].
  - apply IH; [ exact I | intros; apply H; now right ].
Qed.

Lemma off_wanted m r c : off m r c = negb (wanted m r c). Proof. destruct m; reflexivity. Qed.
Definition entry (margin cols : Z) (roi1 roi2 : roi) (v : R) (d r c : Z) : R := if matchable cols margin (wanted roi1) (wanted roi2) d r c then v else (-1)%R.
Lemma skip_matchable cols rad roi1 roi2 d r c : off roi1 r c || (c + d <? rad) || (cols - rad <=? c + d) || off roi2 r (c + d) = negb (matchable cols rad (wanted roi1) (wanted roi2) d r c).
Proof. unfold matchable. rewrite !off_wanted, !negb_andb, (Z.ltb_antisym rad (c + d)), (Z.leb_antisym (c + d) (cols - rad)). reflexivity. Qed.

Lemma image_entry rows cols n offs roi1 roi2 dist im1 im2 r c k : 0 <= r < rows - n / 2 * 2 -> 0 <= c < cols - n / 2 * 2 -> (k < length offs)%nat ->
  let d := nth k offs 0 in image_affinity rows cols n offs roi1 roi2 dist im1 im2 (r, c, k) =
  entry (n / 2) cols roi1 roi2 (dist (window im1 r c) (window im2 r (c + d))) d (r + n / 2) (c + n / 2).
Proof.
  intros R C K d. unfold image_affinity, entry. cbv zeta. set (rad := n / 2) in *. clearbody rad.
  set (l := list_prod _ _). assert (In ((r + rad, c + rad), k) l) as I.
  { apply in_prod; [ apply in_grid; cbn [fst snd]; lia | apply in_seq; lia ]. }
  assert (U : forall i : Z * Z * nat, (fst (fst i) - rad, snd (fst i) - rad, snd i) = (r, c, k) -> i = ((r + rad, c + rad), k)).
  { intros ((y & x) & j) E. cbn in E. injection E as E1 E2 E3. subst j. f_equal. f_equal; lia. }
  destruct (matchable cols rad (wanted roi1) (wanted roi2) d (r + rad) (c + rad)) eqn:M.
  - apply writes_one with (a := ((r + rad, c + rad), k)); [ exact I | |].
    + intro m. cbn [fst snd]. fold d. rewrite skip_matchable, M. cbn [negb]. replace (r + rad - rad) with r by lia. replace (c + rad - rad) with c by lia.
      rewrite put_same. replace (c + rad + d - rad) with (c + d) by lia. reflexivity.
    + intros m i _. rewrite skip_matchable. destruct (matchable _ _ _ _ (nth (snd i) offs 0) _ _); cbn [negb]; [| now left ].
      destruct (cell_eqb (r, c, k) (fst (fst i) - rad, snd (fst i) - rad, snd i)) eqn:E.
      * apply cell_eqb_spec in E. symmetry in E. pose proof (U i E) as ->. right. cbn [fst snd]. fold d. replace (r + rad - rad) with r by lia. replace (c + rad - rad) with c by lia.
        rewrite put_same. replace (c + rad + d - rad) with (c + d) by lia. reflexivity.
      * left. apply put_other. intro F. apply cell_eqb_spec in F. congruence.
  - rewrite writes_none; [ reflexivity |]. intros m i _. rewrite skip_matchable. destruct (matchable _ _ _ _ (nth (snd i) offs 0) _ _) eqn:Q; cbn [negb]; [| reflexivity ].
    apply put_other. intro E. symmetry in E. pose proof (U i E) as ->. cbn [fst snd] in Q. fold d in Q. congruence.
Qed.

Lemma raw_entry rows cols offs roi1 roi2 dist r c k : 0 <= r < rows -> 0 <= c < cols -> (k < length offs)%nat ->
  let d := nth k offs 0 in raw_affinity rows cols offs roi1 roi2 dist (r, c, k) = entry 0 cols roi1 roi2 (dist (r, c) (r, c + d)) d r c.
Proof.
  intros R C K d. unfold raw_affinity, entry.
  assert (In (r, c) (grid 0 rows 0 cols)) as I by (apply in_grid; cbn [fst snd]; lia).
  assert (G : forall p m, off roi1 (fst p) (snd p) = false -> p = (r, c) -> fold_left (fun m k => let o := snd p + nth k offs 0 in
      if (o <? 0) || (cols <=? o) || off roi2 (fst p) o then m else put m (fst p, snd p, k) (dist p (fst p, o))) (seq 0 (length offs)) m (r, c, k) =
      if matchable cols 0 (wanted roi1) (wanted roi2) d r c then dist (r, c) (r, c + d) else m (r, c, k)).
  { intros p m F ->. cbn [fst snd] in *. assert (W : forall x, (c + x <? 0) || (cols <=? c + x) || off roi2 r (c + x) = negb (matchable cols 0 (wanted roi1) (wanted roi2) x r c)).
    { intro x. rewrite <- skip_matchable, F. replace (cols - 0) with cols by lia. reflexivity. }
    destruct (matchable cols 0 (wanted roi1) (wanted roi2) d r c) eqn:M.
    - apply writes_one with (a := k); [ apply in_seq; lia | |].
      + intro m'. cbv zeta. fold d. rewrite W, M. cbn [negb]. apply put_same.
      + intros m' i _. cbv zeta. rewrite W. destruct (matchable _ _ _ _ (nth i offs 0) _ _); cbn [negb]; [| now left ]. destruct (Nat.eq_dec i k) as [->|N]; [ right; apply put_same |].
        left. apply put_other. congruence.
    - apply writes_none. intros m' i _. cbv zeta. rewrite W. destruct (matchable _ _ _ _ (nth i offs 0) _ _) eqn:Q; cbn [negb]; [| reflexivity ]. apply put_other. intro E. injection E as ->. fold d in Q. congruence. }
  assert (N : forall p m, p <> (r, c) -> fold_left (fun m k => let o := snd p + nth k offs 0 in
      if (o <? 0) || (cols <=? o) || off roi2 (fst p) o then m else put m (fst p, snd p, k) (dist p (fst p, o))) (seq 0 (length offs)) m (r, c, k) = m (r, c, k)).
  { intros p m D. apply writes_none. intros m' i _. cbv zeta. destruct (_ || _); [ reflexivity |]. apply put_other. intro E. apply D. destruct p. cbn in E. congruence. }
  destruct (matchable cols 0 (wanted roi1) (wanted roi2) d r c) eqn:M.
  - assert (F : off roi1 r c = false). { unfold matchable in M. rewrite !andb_true_iff in M. rewrite off_wanted. destruct M as (((-> & _) & _) & _). reflexivity. }
    apply writes_one with (a := (r, c)); [ exact I | |].
    + intro m. cbn [fst snd]. rewrite F. etransitivity; [ exact (G (r, c) m F eq_refl) | now rewrite ?M ].
    + intros m p _. destruct (off roi1 (fst p) (snd p)) eqn:P; [ now left |]. destruct (cell_eqb (p, O) ((r, c), O)) eqn:E.
      * apply cell_eqb_spec in E. injection E as E. right. etransitivity; [ exact (G p m P E) | now rewrite ?M ].
      * left. apply N. intros ->. rewrite (proj2 (cell_eqb_spec _ _) eq_refl) in E. discriminate.
  - rewrite writes_none; [ reflexivity |]. intros m p _. destruct (off roi1 (fst p) (snd p)) eqn:P; [ reflexivity |]. destruct (cell_eqb (p, O) ((r, c), O)) eqn:E.
    + apply cell_eqb_spec in E. injection E as E. etransitivity; [ exact (G p m P E) | now rewrite ?M ].
    + apply N. intros ->. rewrite (proj2 (cell_eqb_spec _ _) eq_refl) in E. discriminate.
Qed.

Lemma patch_fold (raw : affmap) (k : nat) l : forall a, let res := fold_left (fun a p => if Req_EM_T (raw (fst p, snd p, k)) (-1) then a else (S (fst a), (snd a + raw (fst p, snd p, k))%R)) l a in
  let s := filter (fun p => if Req_EM_T (raw (fst p, snd p, k)) (-1) then false else true) l in
  fst res = (fst a + length s)%nat /\ snd res = (snd a + sum (fun p : Z * Z => raw (fst p, snd p, k)) s)%R.
Proof.
  induction l as [|p l IH]; intro a; cbn [fold_left filter]; [ cbn; split; [ lia | lra ] |].
  destruct (Req_EM_T (raw (fst p, snd p, k)) (-1)) as [E|E].
  - apply IH.
  - specialize (IH (S (fst a), (snd a + raw (fst p, snd p, k))%R)). cbv zeta in IH. destruct IH as (L & S0). cbn [fst snd] in L, S0. cbv zeta. split.
    + rewrite L. cbn [length]. lia.
    + rewrite S0, sum_cons. lra.
Qed.
Lemma clip_grid rows cols rad r c (q : Z * Z -> bool) : 0 <= r < rows -> 0 <= c < cols -> 0 <= rad ->
  Permutation (filter q (grid (Z.max (r - rad) 0) (Z.min (r + rad) (rows - 1) + 1 - Z.max (r - rad) 0) (Z.max (c - rad) 0) (Z.min (c + rad) (cols - 1) + 1 - Z.max (c - rad) 0)))
    (filter (fun p => (Z.abs (fst p - r) <=? rad) && (Z.abs (snd p - c) <=? rad) && q p) (grid 0 rows 0 cols)).
Proof.
  intros R C A. apply NoDup_Permutation; [ apply NoDup_filter, nodup_grid | apply NoDup_filter, nodup_grid |]. intro p. rewrite !filter_In, !in_grid, !andb_true_iff, !Z.leb_le.
  split; intros (H & Q); repeat split; try tauto; lia.
Qed.
Lemma desc_entry rows cols n offs roi1 roi2 dist r c k : 1 <= n -> 0 <= r < rows -> 0 <= c < cols -> (k < length offs)%nat -> (forall p q, (0 <= dist p q)%R) ->
  let d := nth k offs 0 in let l := supporters rows cols (n / 2) (wanted roi1) (wanted roi2) d r c in
  desc_affinity rows cols n offs roi1 roi2 dist (r, c, k) = match l with [] => (-1)%R | _ => average (fun p => dist p (fst p, snd p + d)) l end.
Proof.
  intros N R C K P d l. unfold desc_affinity. cbv zeta. destruct (Z.eqb_spec n 1) as [->|N1].
  - rewrite raw_entry by assumption. fold d. unfold entry.
    assert (L : l = if matchable cols 0 (wanted roi1) (wanted roi2) d r c then [(r, c)] else []).
    { unfold l, supporters. change (1 / 2) with 0. destruct (matchable cols 0 (wanted roi1) (wanted roi2) d r c) eqn:M.
      - apply Permutation_length_1_inv. apply NoDup_Permutation; [ repeat constructor; easy | apply NoDup_filter, nodup_grid |]. intro p. rewrite filter_In, in_grid, !andb_true_iff, !Z.leb_le. split.
        + intros [<-|[]]. cbn [fst snd]. repeat split; try lia. exact M.
        + intros (_ & (Y & X) & _). left. destruct p. cbn [fst snd] in *. f_equal; lia.
      - apply filter_none. intros (y, x) I. apply not_true_iff_false. intro H. rewrite !andb_true_iff, !Z.leb_le in H. cbn [fst snd] in H. destruct H as ((Y & X) & H). assert (y = r) by lia. assert (x = c) by lia. subst. congruence. }
    rewrite L. destruct (matchable _ _ _ _ d r c); [| reflexivity ]. unfold average. cbn. lra.
  - set (raw := raw_affinity rows cols offs roi1 roi2 dist). set (ll := list_prod _ _).
    assert (A : let a := patch rows cols (n / 2) raw r c k in fst a = length l /\ snd a = sum (fun p => dist p (fst p, snd p + d)) l).
    { cbv zeta. unfold patch. match goal with |- fst (fold_left _ ?g _) = _ /\ _ => pose proof (patch_fold raw k g (O, 0%R)) as F end. cbv zeta in F. cbn [fst snd Nat.add] in F.
      destruct F as (F1 & F2). rewrite F1, F2, Rplus_0_l. assert (Hr : 0 <= n / 2) by (apply Z.div_pos; lia).
      pose proof (clip_grid rows cols (n / 2) r c (fun p => if Req_EM_T (raw (fst p, snd p, k)) (-1) then false else true) R C Hr) as Q.
      assert (E : filter (fun p => (Z.abs (fst p - r) <=? n / 2) && (Z.abs (snd p - c) <=? n / 2) && (if Req_EM_T (raw (fst p, snd p, k)) (-1) then false else true)) (grid 0 rows 0 cols) = l).
      { unfold l, supporters. apply filter_ext_in. intros (y, x) I. apply in_grid in I. f_equal. cbn [fst snd] in *. unfold raw. rewrite raw_entry by (assumption || lia). fold d. unfold entry.
        destruct (matchable cols 0 (wanted roi1) (wanted roi2) d y x); destruct (Req_EM_T _ _) as [E|E]; try reflexivity; [| contradiction ]. pose proof (P (y, x) (y, x + d)). lra. }
      cbv beta in Q. rewrite E in Q. split; [ now apply Permutation_length |]. rewrite (sum_perm _ _ _ Q). apply sum_ext. intros (y, x) I. apply filter_In in I. destruct I as (I & M). apply in_grid in I. cbn [fst snd] in *.
      unfold raw. rewrite raw_entry by (assumption || lia). fold d. unfold entry. rewrite !andb_true_iff in M. destruct M as (_ & ->). reflexivity. }
    cbv zeta in A. destruct A as (A1 & A2).
    assert (In ((r, c), k) ll) as I by (apply in_prod; [ apply in_grid; cbn [fst snd]; lia | apply in_seq; lia ]).
    assert (Z0 : forall i : cell, i <> (r, c, k) -> forall m, (if (fst (patch rows cols (n / 2) raw (fst (fst i)) (snd (fst i)) (snd i)) =? 0)%nat then m else
      put m i (snd (patch rows cols (n / 2) raw (fst (fst i)) (snd (fst i)) (snd i)) / INR (fst (patch rows cols (n / 2) raw (fst (fst i)) (snd (fst i)) (snd i))))%R) (r, c, k) = m (r, c, k)).
    { intros i D m. destruct (_ =? 0)%nat; [ reflexivity |]. apply put_other. congruence. }
    destruct l as [|p0 l'] eqn:L.
    + rewrite writes_none; [ reflexivity |]. intros m i _. destruct (cell_eqb i (r, c, k)) eqn:E; [ apply cell_eqb_spec in E; subst i; cbn [fst snd]; rewrite A1; reflexivity |].
      apply Z0. intros ->. rewrite (proj2 (cell_eqb_spec _ _) eq_refl) in E. discriminate.
    + rewrite <- L in *. assert (V : forall m, (if (fst (patch rows cols (n / 2) raw r c k) =? 0)%nat then m else put m (r, c, k) (snd (patch rows cols (n / 2) raw r c k) / INR (fst (patch rows cols (n / 2) raw r c k)))%R) (r, c, k)
        = average (fun p => dist p (fst p, snd p + d)) l).
      { intro m. rewrite A1, A2. replace (length l =? 0)%nat with false by (rewrite L; reflexivity). apply put_same. }
      apply writes_one with (a := ((r, c), k)); [ exact I | exact V |]. intros m i _. destruct (cell_eqb i (r, c, k)) eqn:E; [ apply cell_eqb_spec in E; subst i; right; apply V |].
      left. apply Z0. intros ->. rewrite (proj2 (cell_eqb_spec _ _) eq_refl) in E. discriminate.
Qed.

(** exchanging the images *)
Lemma matchable_swap cols margin in1 in2 d r c : margin <= c < cols - margin -> margin <= c + d < cols - margin -> matchable cols margin in2 in1 (- d) r (c + d) = matchable cols margin in1 in2 d r c.
Proof.
  intros C D. unfold matchable. replace (c + d + - d) with c by lia.
  rewrite (proj2 (Z.leb_le margin c)), (proj2 (Z.ltb_lt c _)), (proj2 (Z.leb_le margin (c + d))), (proj2 (Z.ltb_lt (c + d) _)) by lia. rewrite !andb_true_r. apply andb_comm.
Qed.
Lemma image_symmetric rows cols n offs offs' roi1 roi2 dist im1 im2 r c k k' : (forall a b, dist a b = dist b a) ->
  0 <= r < rows - n / 2 * 2 -> 0 <= c < cols - n / 2 * 2 -> 0 <= c + nth k offs 0 < cols - n / 2 * 2 -> (k < length offs)%nat -> (k' < length offs')%nat -> nth k' offs' 0 = - nth k offs 0 ->
  image_affinity rows cols n offs roi1 roi2 dist im1 im2 (r, c, k) = image_affinity rows cols n offs' roi2 roi1 dist im2 im1 (r, c + nth k offs 0, k').
Proof.
  intros S R C D K K' E. rewrite !image_entry by assumption. unfold entry. rewrite E. set (d := nth k offs 0) in *. replace (c + d + n / 2) with (c + n / 2 + d) by lia.
  rewrite matchable_swap by lia. replace (c + d + - d) with c by lia. destruct (matchable _ _ _ _ _ _ _); [ apply S | reflexivity ].
Qed.
Definition shift (d : Z) (p : Z * Z) : Z * Z := (fst p, snd p + d).
Lemma supporters_swap rows cols rad in1 in2 d r c : 0 <= c < cols -> 0 <= c + d < cols ->
  Permutation (map (shift d) (supporters rows cols rad in1 in2 d r c)) (supporters rows cols rad in2 in1 (- d) r (c + d)).
Proof.
  intros C D. apply NoDup_Permutation.
  - apply FinFun.Injective_map_NoDup; [| apply NoDup_filter, nodup_grid ]. intros (a, b) (a', b') E. unfold shift in E. cbn in E. injection E as -> E. f_equal. lia.
  - apply NoDup_filter, nodup_grid.
  - intros (y, x). unfold supporters. rewrite in_map_iff, filter_In, in_grid, !andb_true_iff, !Z.leb_le. cbn [fst snd]. split.
    + intros ((y', x') & E & H). unfold shift in E. cbn in E. injection E as -> <-. rewrite filter_In, in_grid, !andb_true_iff, !Z.leb_le in H. cbn [fst snd] in H. destruct H as (G & (Y & X) & M).
      assert (0 <= x' + d < cols). { unfold matchable in M. rewrite !andb_true_iff, Z.leb_le, Z.ltb_lt in M. lia. }
      repeat split; try lia. rewrite matchable_swap by lia. exact M.
    + intros (G & (Y & X) & M). exists (y, x - d). split; [ unfold shift; cbn; f_equal; lia |]. rewrite filter_In, in_grid, !andb_true_iff, !Z.leb_le. cbn [fst snd].
      assert (0 <= x - d < cols). { unfold matchable in M. rewrite !andb_true_iff, Z.leb_le, Z.ltb_lt in M. lia. }
      repeat split; try lia. rewrite <- matchable_swap by lia. replace (x - d + d) with x by lia. exact M.
Qed.
Lemma desc_symmetric rows cols n offs offs' roi1 roi2 dist r c k k' : 1 <= n -> (forall p q, (0 <= dist p q)%R) ->
  0 <= r < rows -> 0 <= c < cols -> 0 <= c + nth k offs 0 < cols -> (k < length offs)%nat -> (k' < length offs')%nat -> nth k' offs' 0 = - nth k offs 0 ->
  desc_affinity rows cols n offs roi1 roi2 dist (r, c, k) = desc_affinity rows cols n offs' roi2 roi1 (fun p q => dist q p) (r, c + nth k offs 0, k').
Proof.
  intros N P R C D K K' E. rewrite !desc_entry by auto. cbv zeta. rewrite E. set (d := nth k offs 0) in *. pose proof (supporters_swap rows cols (n / 2) (wanted roi1) (wanted roi2) d r c C D) as Q.
  set (l := supporters _ _ _ _ _ d _ _) in *. set (l' := supporters _ _ _ _ _ (- d) _ _) in *. assert (A : average (fun p => dist p (fst p, snd p + d)) l = average (fun p => dist (fst p, snd p + - d) p) l').
  { unfold average. rewrite <- (sum_perm _ _ _ Q), <- (Permutation_length Q), map_length, sum_map. f_equal. apply sum_ext. intros (y, x) _. unfold shift. cbn [fst snd]. replace (x + d + - d) with x by lia. reflexivity. }
  apply Permutation_length in Q. rewrite map_length in Q. destruct l, l'; try discriminate; [ reflexivity | exact A ].
Qed.

(** distances *)
Lemma ssd_sum n a b : ssd n a b = sqrt (sum (fun p => ((a (fst p) (snd p) - b (fst p) (snd p)) * (a (fst p) (snd p) - b (fst p) (snd p)))%R) (grid 0 n 0 n)).
Proof. unfold ssd. rewrite (sum_fold (fun p => ((a (fst p) (snd p) - b (fst p) (snd p)) * (a (fst p) (snd p) - b (fst p) (snd p)))%R)). now rewrite Rplus_0_l. Qed.
Lemma ssd_sym n a b : ssd n a b = ssd n b a.
Proof. rewrite !ssd_sum. f_equal. apply sum_ext. intros. ring. Qed.
Lemma ssd_zero n a b : ssd n a b = 0%R <-> forall i j, 0 <= i < n -> 0 <= j < n -> a i j = b i j.
Proof.
  rewrite ssd_sum. match goal with |- sqrt (sum ?g _) = _ <-> _ => set (f := g) end. assert (P : forall x, In x (grid 0 n 0 n) -> (0 <= f x)%R) by (intros; unfold f; apply Rle_0_sqr). split.
  - intros E i j I J. apply sqrt_eq_0 in E; [| now apply sum_nonneg ]. assert (Z0 : f (i, j) = 0%R) by (apply (sum_zero f (grid 0 n 0 n)); auto; apply in_grid; cbn [fst snd]; lia).
    unfold f in Z0. cbn in Z0. apply Rmult_integral in Z0. destruct Z0; lra.
  - intro H. rewrite (sum_ext f (fun _ => 0%R)).
    + assert (E : forall l : list (Z * Z), sum (fun _ => 0%R) l = 0%R) by (induction l as [|a0 l IH]; [ reflexivity |]; rewrite sum_cons, IH; lra). rewrite E. apply sqrt_0.
    + intros (i, j) I. apply in_grid in I. cbn [fst snd] in I. unfold f. cbn. rewrite (H i j) by lia. ring.
Qed.
Lemma l2_sum a b : l2 a b = sqrt (sum (fun p => ((fst p - snd p) * (fst p - snd p))%R) (combine a b)).
Proof. unfold l2. rewrite (sum_fold (fun p : R * R => ((fst p - snd p) * (fst p - snd p))%R)). now rewrite Rplus_0_l. Qed.
Lemma l2_sym a : forall b, l2 a b = l2 b a.
Proof.
  intro b. rewrite !l2_sum. f_equal. revert b. induction a as [|x a IH]; intros [|y b]; try reflexivity. cbn [combine]. rewrite !sum_cons, IH. cbn. ring.
Qed.
Lemma l2_pos a b : (0 <= l2 a b)%R. Proof. rewrite l2_sum. apply sqrt_pos. Qed.
Lemma l2_unit a b : length a = length b -> (forall x, In x a -> (0 <= x)%R) -> (forall x, In x b -> (0 <= x)%R) -> sum (fun x => (x * x)%R) a = 1%R -> sum (fun x => (x * x)%R) b = 1%R ->
  (0 <= l2 a b <= sqrt 2)%R.
Proof.
  intros L A B U V. split; [ apply l2_pos |]. rewrite l2_sum. apply sqrt_le_1_alt.
  assert (G : (sum (fun p => ((fst p - snd p) * (fst p - snd p))%R) (combine a b) <= sum (fun x => (x * x)%R) a + sum (fun x => (x * x)%R) b)%R).
  { clear U V. revert b L B. induction a as [|x a IH]; intros [|y b] L B; try discriminate; [ cbn; lra |]. cbn [combine]. rewrite !sum_cons. cbn [fst snd].
    injection L as L. assert (Q : (sum (fun p => ((fst p - snd p) * (fst p - snd p))%R) (combine a b) <= sum (fun x => (x * x)%R) a + sum (fun x => (x * x)%R) b)%R).
    { apply IH; [ intros; apply A; now right | exact L | intros; apply B; now right ]. }
    assert (0 <= x)%R by (apply A; now left). assert (0 <= y)%R by (apply B; now left). nra. }
  lra.
Qed.
