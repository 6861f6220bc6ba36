From Coq Require Import ZArith Reals List Bool Lia Lra.
From Verif Require Import Lib.Grid Model.Dasc Spec.Dasc.
Import ListNotations.
Open Scope R_scope.

(** sums *)
Lemma total_ext {A} (l : list A) f g : (forall x, In x l -> f x = g x) -> total l f = total l g.
Proof.
  induction l as [|a l IH]; intro E; [ reflexivity |]. cbn. rewrite (E a) by now left. f_equal. apply IH. intros x X. apply E. now right.
Qed.
Lemma total_plus {A} (l : list A) f g : total l (fun x => f x + g x) = total l f + total l g.
Proof. induction l as [|a l IH]; cbn; [ lra |]. fold (total l (fun x => f x + g x)). rewrite IH. unfold total. lra. Qed.
Lemma total_scale {A} (l : list A) k f : total l (fun x => k * f x) = k * total l f.
Proof. induction l as [|a l IH]; cbn; [ lra |]. fold (total l (fun x => k * f x)). rewrite IH. unfold total. lra. Qed.
Lemma total_zero {A} (l : list A) f : (forall x, In x l -> f x = 0) -> total l f = 0.
Proof. intro Z0. rewrite (total_ext l f (fun _ => 0)) by exact Z0. induction l as [|a l IH]; cbn; [ reflexivity |]. fold (total l (fun _ => 0)). rewrite IH; [ lra |]. intros x X. apply Z0. now right. Qed.
Lemma total_nonneg {A} (l : list A) f : (forall x, In x l -> 0 <= f x) -> 0 <= total l f.
Proof.
  induction l as [|a l IH]; intro P; cbn; [ lra |]. assert (0 <= total l f) by (apply IH; intros x X; apply P; now right).
  pose proof (P a (or_introl eq_refl)). unfold total in *. lra.
Qed.
Lemma total_pos {A} (l : list A) f x : In x l -> 0 < f x -> (forall y, In y l -> 0 <= f y) -> 0 < total l f.
Proof.
  induction l as [|a l IH]; intros X F P; [ destruct X |]. cbn. destruct X as [->|X].
  - assert (0 <= total l f) by (apply total_nonneg; intros y Y; apply P; now right). unfold total in *. lra.
  - assert (0 < total l f) by (apply IH; auto; intros y Y; apply P; now right). pose proof (P a (or_introl eq_refl)). unfold total in *. lra.
Qed.
Lemma total_app {A} (l m : list A) f : total (l ++ m) f = total l f + total m f.
Proof. induction l as [|a l IH]; cbn; [ unfold total at 1; lra |]. fold (total (l ++ m) f). rewrite IH. unfold total. lra. Qed.
Lemma total_map {A B} (g : A -> B) (l : list A) f : total (map g l) f = total l (fun x => f (g x)).
Proof. induction l as [|a l IH]; [ reflexivity |]. cbn. f_equal. exact IH. Qed.
Lemma total_prod {A B} (l : list A) (m : list B) f : total (list_prod l m) f = total l (fun x => total m (fun y => f (x, y))).
Proof.
  induction l as [|a l IH]; [ reflexivity |]. cbn [list_prod]. rewrite total_app, total_map, IH. reflexivity.
Qed.
Lemma total_swap {A B} (l : list A) (m : list B) f : total l (fun x => total m (fun y => f x y)) = total m (fun y => total l (fun x => f x y)).
Proof.
  induction l as [|a l IH]; cbn.
  - symmetry. apply total_zero. reflexivity.
  - fold (total l (fun x => total m (fun y => f x y))). rewrite IH, <- total_plus. reflexivity.
Qed.
Lemma total_pick (a n k : Z) (f : Z -> R) : (a <= k < a + n)%Z -> total (zrange a n) (fun j => (if (j =? k)%Z then 1 else 0) * f j) = f k.
Proof.
  unfold zrange. intro K. assert (E : exists m, Z.to_nat n = m /\ (a <= k < a + Z.of_nat m)%Z) by (exists (Z.to_nat n); lia).
  destruct E as (m & -> & K'). clear K n. revert a K'. induction m as [|m IH]; intros a K; [ lia |].
  rewrite zseq_S. cbn. fold (total (zseq (a + 1) m) (fun j => (if (j =? k)%Z then 1 else 0) * f j)).
  destruct (Z.eq_dec a k) as [->|N].
  - rewrite Z.eqb_refl, total_zero; [ lra |]. intros x X. apply in_zseq in X. destruct (Z.eqb_spec x k); [ lia | lra ].
  - destruct (Z.eqb_spec a k); [ lia |]. rewrite IH by lia. lra.
Qed.

(** the loops and their recurrences *)
Lemma right_fold w r n : forall a g, (1 <= a)%Z -> let g' := fold_left (to_right w r) (zseq a n) g in
  (forall y x, (y <> r \/ x < a \/ a + Z.of_nat n <= x)%Z -> g' y x = g y x) /\
  (forall c, (a <= c < a + Z.of_nat n)%Z -> g' r c = (1 - w r c) * g r c + w r c * g' r (c - 1)%Z).
Proof.
  induction n as [|n IH]; intros a g A.
  - split; [ reflexivity | intros c C; lia ].
  - rewrite zseq_S. cbn [fold_left]. specialize (IH (a + 1)%Z (to_right w r g a) ltac:(lia)). cbv zeta in IH |- *. destruct IH as (U & R).
    assert (P : forall y x, (y <> r \/ x <> a)%Z -> to_right w r g a y x = g y x).
    { intros y x D. unfold to_right, put. destruct (Z.eqb_spec y r), (Z.eqb_spec x a); try reflexivity. lia. }
    split.
    + intros y x D. rewrite U by lia. apply P. lia.
    + intros c C. destruct (Z.eq_dec c a) as [->|N].
      * rewrite (U r a), (U r (a - 1)%Z), (P r (a - 1)%Z) by lia. unfold to_right, put. rewrite !Z.eqb_refl. cbn [andb]. lra.
      * rewrite R, (P r c) by lia. reflexivity.
Qed.
Lemma left_fold w r n : forall g, let g' := fold_left (to_left w r) (rev (zseq 0 n)) g in
  (forall y x, (y <> r \/ x < 0 \/ Z.of_nat n <= x)%Z -> g' y x = g y x) /\
  (forall c, (0 <= c < Z.of_nat n)%Z -> g' r c = (1 - w r (c + 1)%Z) * g r c + w r (c + 1)%Z * g' r (c + 1)%Z).
Proof.
  induction n as [|n IH]; intro g.
  - split; [ reflexivity | intros c C; lia ].
  - replace (S n) with (n + 1)%nat by lia. rewrite zseq_app, rev_app_distr. change (zseq (0 + Z.of_nat n) 1) with [(0 + Z.of_nat n + 0)%Z].
    replace (0 + Z.of_nat n + 0)%Z with (Z.of_nat n) by lia. cbn [rev app fold_left].
    specialize (IH (to_left w r g (Z.of_nat n))). cbv zeta in IH |- *. destruct IH as (U & R).
    assert (P : forall y x, (y <> r \/ x <> Z.of_nat n)%Z -> to_left w r g (Z.of_nat n) y x = g y x).
    { intros y x D. unfold to_left, put. destruct (Z.eqb_spec y r), (Z.eqb_spec x (Z.of_nat n)); try reflexivity. lia. }
    split.
    + intros y x D. rewrite U by lia. apply P. lia.
    + intros c C. destruct (Z.eq_dec c (Z.of_nat n)) as [->|N].
      * rewrite (U r (Z.of_nat n)), (U r (Z.of_nat n + 1)%Z), (P r (Z.of_nat n + 1)%Z) by lia. unfold to_left, put. rewrite !Z.eqb_refl. cbn [andb]. lra.
      * rewrite R, (P r c) by lia. reflexivity.
Qed.

Definition row_done (cols : Z) (w f g : image) (r : Z) : Prop := exists h : Z -> R,
    h 0%Z = f r 0%Z /\
    (forall c, (1 <= c < cols)%Z -> h c = (1 - w r c) * f r c + w r c * h (c - 1)%Z) /\
    g r (cols - 1)%Z = h (cols - 1)%Z /\
    (forall c, (0 <= c < cols - 1)%Z -> g r c = (1 - w r (c + 1)%Z) * h c + w r (c + 1)%Z * g r (c + 1)%Z).

Lemma row_ok cols w r g : (1 <= cols)%Z -> let g' := fold_left (to_left w r) (rev (zrange 0 (cols - 1))) (fold_left (to_right w r) (zrange 1 (cols - 1)) g) in
  (forall y x, y <> r -> g' y x = g y x) /\ row_done cols w g g' r.
Proof.
  intros C g'. subst g'. unfold zrange.
  pose proof (right_fold w r (Z.to_nat (cols - 1)) 1 g ltac:(lia)) as (U & R). cbv zeta in U, R.
  set (h := fold_left (to_right w r) (zseq 1 (Z.to_nat (cols - 1))) g) in *.
  pose proof (left_fold w r (Z.to_nat (cols - 1)) h) as (V & L). cbv zeta in V, L. split.
  - intros y x N. rewrite V by lia. apply U. lia.
  - exists (h r). repeat split.
    + apply U. lia.
    + intros c K. apply R. lia.
    + apply V. lia.
    + intros c K. apply L. lia.
Qed.
Lemma rows_ok cols w (step : image -> Z -> image) :
  (forall g r, (forall y x, y <> r -> step g r y x = g y x) /\ row_done cols w g (step g r) r) ->
  forall n a g, let g' := fold_left step (zseq a n) g in
  (forall y x, (y < a \/ a + Z.of_nat n <= y)%Z -> g' y x = g y x) /\ (forall r, (a <= r < a + Z.of_nat n)%Z -> row_done cols w g g' r).
Proof.
  intro S1. induction n as [|n IH]; intros a g; [ split; [ reflexivity | intros; lia ] |].
  rewrite zseq_S. cbn [fold_left]. specialize (IH (a + 1)%Z (step g a)). cbv zeta in IH |- *. destruct IH as (U & D).
  destruct (S1 g a) as (N & D0). split.
  - intros y x K. rewrite U by lia. apply N. lia.
  - intros r K. destruct (Z.eq_dec r a) as [->|E].
    + destruct D0 as (h & H1 & H2 & H3 & H4). exists h. repeat split; auto.
      * rewrite U by lia. exact H3.
      * intros c C. rewrite !U by lia. now apply H4.
    + destruct (D r ltac:(lia)) as (h & H1 & H2 & H3 & H4). exists h. repeat split; auto.
      * rewrite H1. apply N. lia.
      * intros c C. rewrite (H2 c C), N by lia. reflexivity.
Qed.
Lemma filter_h_mixed rows cols w f : (1 <= cols)%Z -> mixed rows cols w f (filter_h rows cols w f).
Proof.
  intros C r R. unfold filter_h, zrange at 1.
  pose proof (rows_ok cols w (fun g r => fold_left (to_left w r) (rev (zrange 0 (cols - 1))) (fold_left (to_right w r) (zrange 1 (cols - 1)) g))
    (fun g r => row_ok cols w r g C) (Z.to_nat rows) 0 f) as (_ & D).
  exact (D r ltac:(lia)).
Qed.

(** the weights of one row *)
Section Row.
  Context (a : Z -> R) (n : Z).
  Fixpoint wf (k : nat) (j : Z) : R :=
    match k with
    | O => if (j =? 0)%Z then 1 else 0
    | S i => (1 - a (Z.of_nat k)) * (if (j =? Z.of_nat k)%Z then 1 else 0) + a (Z.of_nat k) * wf i j
    end.
  (* k counts from the end of the row *)
  Fixpoint wb (k : nat) (j : Z) : R :=
    match k with
    | O => wf (Z.to_nat (n - 1)) j
    | S i => let c := (n - 1 - Z.of_nat k)%Z in (1 - a (c + 1)%Z) * wf (Z.to_nat c) j + a (c + 1)%Z * wb i j
    end.
  Context (P : forall c, (1 <= c < n)%Z -> 0 < a c < 1).

  Lemma wf_sign k : (Z.of_nat k < n)%Z -> forall j, (0 <= wf k j) /\ ((0 <= j <= Z.of_nat k)%Z -> 0 < wf k j).
  Proof.
    induction k as [|k IH]; intros K j; cbn [wf].
    - destruct (Z.eqb_spec j 0); split; try lra. intro. lia.
    - specialize (IH ltac:(lia) j). destruct IH as (I0 & I1). pose proof (P (Z.of_nat (S k)) ltac:(lia)) as Pk.
      destruct (Z.eqb_spec j (Z.of_nat (S k))) as [->|N].
      + assert (0 <= a (Z.of_nat (S k)) * wf k (Z.of_nat (S k))) by (apply Rmult_le_pos; lra). split; [ lra | intros _; lra ].
      + split.
        * assert (0 <= a (Z.of_nat (S k)) * wf k j) by (apply Rmult_le_pos; lra). lra.
        * intro J. assert (0 < a (Z.of_nat (S k)) * wf k j) by (apply Rmult_lt_0_compat; [ lra | apply I1; lia ]). lra.
  Qed.
  Lemma wb_pos k : (Z.of_nat k < n)%Z -> forall j, (0 <= j < n)%Z -> 0 < wb k j.
  Proof.
    induction k as [|k IH]; intros K j J; cbn [wb].
    - apply (wf_sign (Z.to_nat (n - 1))); lia.
    - cbv zeta. pose proof (P (n - 1 - Z.of_nat (S k) + 1)%Z ltac:(lia)) as Pk. specialize (IH ltac:(lia) j J).
      pose proof (proj1 (wf_sign (Z.to_nat (n - 1 - Z.of_nat (S k))) ltac:(lia) j)).
      assert (0 < a (n - 1 - Z.of_nat (S k) + 1)%Z * wb k j) by (apply Rmult_lt_0_compat; lra).
      assert (0 <= (1 - a (n - 1 - Z.of_nat (S k) + 1)%Z) * wf (Z.to_nat (n - 1 - Z.of_nat (S k))) j) by (apply Rmult_le_pos; lra). lra.
  Qed.
  Lemma wf_rep f h : h 0%Z = f 0%Z -> (forall c, (1 <= c < n)%Z -> h c = (1 - a c) * f c + a c * h (c - 1)%Z) ->
    forall k, (Z.of_nat k < n)%Z -> h (Z.of_nat k) = total (zrange 0 n) (fun j => wf k j * f j).
  Proof.
    intros H0 H1. induction k as [|k IH]; intro K; cbn [wf].
    - rewrite total_pick by lia. exact H0.
    - rewrite H1 by lia. replace (Z.of_nat (S k) - 1)%Z with (Z.of_nat k) by lia. rewrite IH by lia.
      symmetry. rewrite (total_ext _ _ (fun j => (1 - a (Z.of_nat (S k))) * ((if (j =? Z.of_nat (S k))%Z then 1 else 0) * f j) + a (Z.of_nat (S k)) * (wf k j * f j))).
      + rewrite total_plus, !total_scale, total_pick by lia. reflexivity.
      + intros x _. lra.
  Qed.
  Lemma wb_rep f h g : h 0%Z = f 0%Z -> (forall c, (1 <= c < n)%Z -> h c = (1 - a c) * f c + a c * h (c - 1)%Z) ->
    g (n - 1)%Z = h (n - 1)%Z -> (forall c, (0 <= c < n - 1)%Z -> g c = (1 - a (c + 1)%Z) * h c + a (c + 1)%Z * g (c + 1)%Z) ->
    forall k, (Z.of_nat k < n)%Z -> g (n - 1 - Z.of_nat k)%Z = total (zrange 0 n) (fun j => wb k j * f j).
  Proof.
    intros H0 H1 G0 G1. pose proof (wf_rep f h H0 H1) as F. induction k as [|k IH]; intro K; cbn [wb].
    - replace (n - 1 - Z.of_nat 0)%Z with (n - 1)%Z by lia. rewrite G0, <- F by lia. f_equal. lia.
    - cbv zeta. rewrite G1 by lia. replace (n - 1 - Z.of_nat (S k) + 1)%Z with (n - 1 - Z.of_nat k)%Z by lia. rewrite IH by lia.
      symmetry. rewrite (total_ext _ _ (fun j => (1 - a (n - 1 - Z.of_nat k)%Z) * (wf (Z.to_nat (n - 1 - Z.of_nat (S k))) j * f j) + a (n - 1 - Z.of_nat k)%Z * (wb k j * f j))).
      + rewrite total_plus, !total_scale, <- (F (Z.to_nat (n - 1 - Z.of_nat (S k)))) by lia. rewrite Z2Nat.id by lia. reflexivity.
      + intros x _. lra.
  Qed.
  Lemma wb_one k : (Z.of_nat k < n)%Z -> total (zrange 0 n) (wb k) = 1.
  Proof.
    intro K. rewrite (total_ext _ _ (fun j => wb k j * (fun _ => 1) j)) by (intros; lra).
    rewrite <- (wb_rep (fun _ => 1) (fun _ => 1) (fun _ => 1)); try lra; try reflexivity; try exact K; intros; lra.
  Qed.
End Row.

(** the whole image *)
Definition row_weight (w : image) (n r c j : Z) : R := wb (w r) n (Z.to_nat (n - 1 - c)) j.
Definition fair (rows cols : Z) (w : image) : Prop := forall r c, (0 <= r < rows)%Z -> (1 <= c < cols)%Z -> 0 < w r c < 1.
Lemma filter_h_rep rows cols w f r c : fair rows cols w -> (0 <= r < rows)%Z -> (0 <= c < cols)%Z ->
  filter_h rows cols w f r c = total (zrange 0 cols) (fun j => row_weight w cols r c j * f r j).
Proof.
  intros F R C. destruct (filter_h_mixed rows cols w f ltac:(lia) r R) as (h & H0 & H1 & G0 & G1).
  unfold row_weight. rewrite <- (wb_rep (w r) cols (f r) h (filter_h rows cols w f r)); try assumption; [ f_equal; lia | lia ].
Qed.
Lemma row_weight_pos rows cols w r c j : fair rows cols w -> (0 <= r < rows)%Z -> (0 <= c < cols)%Z -> (0 <= j < cols)%Z -> 0 < row_weight w cols r c j.
Proof. intros F R C J. apply wb_pos; [ intros; now apply F | lia | exact J ]. Qed.
Lemma row_weight_one rows cols w r c : fair rows cols w -> (0 <= r < rows)%Z -> (0 <= c < cols)%Z -> total (zrange 0 cols) (row_weight w cols r c) = 1.
Proof. intros F R C. apply (wb_one (w r) cols). lia. Qed.

Definition averages (rows cols : Z) (T : image -> image) : Prop := exists W : Z * Z -> Z * Z -> R,
  forall p, In p (grid 0 rows 0 cols) -> weighting rows cols (W p) /\ forall f, T f (fst p) (snd p) = mean rows cols (W p) f.
Lemma pass_averages rows cols wh wv : fair rows cols wh -> fair cols rows wv ->
  averages rows cols (fun g => flip (filter_h cols rows wv (flip (filter_h rows cols wh g)))).
Proof.
  intros FH FV. exists (fun p q => row_weight wv rows (snd p) (fst p) (fst q) * row_weight wh cols (fst q) (snd p) (snd q)).
  intros (r, c) I. apply in_grid in I. cbn [fst snd] in I |- *. split; [ split |].
  - intros (y, x) Q. apply in_grid in Q. cbn [fst snd] in Q |- *.
    apply Rmult_lt_0_compat; [ apply (row_weight_pos cols rows) | apply (row_weight_pos rows cols) ]; auto; lia.
  - unfold grid. rewrite total_prod. cbn [fst snd].
    rewrite <- (row_weight_one cols rows wv c r FV) by lia. apply total_ext. intros y Y. apply in_zrange in Y.
    rewrite total_scale, (row_weight_one rows cols) by (auto; lia). lra.
  - intro f. unfold flip at 1. rewrite filter_h_rep by (auto; lia). unfold mean, grid. rewrite total_prod. cbn [fst snd].
    apply total_ext. intros y Y. apply in_zrange in Y. unfold flip. rewrite filter_h_rep by (auto; lia).
    rewrite <- total_scale. apply total_ext. intros x _. lra.
Qed.
Lemma averages_compose rows cols T1 T2 : averages rows cols T1 -> averages rows cols T2 -> averages rows cols (fun f => T2 (T1 f)).
Proof.
  intros (W1 & A1) (W2 & A2). exists (fun p q => total (grid 0 rows 0 cols) (fun s => W2 p s * W1 s q)).
  intros p I. destruct (A2 p I) as ((P2 & S2) & M2). split; [ split |].
  - intros q Q. apply (total_pos _ _ p); [ exact I | | ].
    + apply Rmult_lt_0_compat; [ now apply P2 | now apply (proj1 (proj1 (A1 p I))) ].
    + intros s S. apply Rlt_le, Rmult_lt_0_compat; [ now apply P2 | now apply (proj1 (proj1 (A1 s S))) ].
  - rewrite total_swap. rewrite <- S2. apply total_ext. intros s S. rewrite total_scale, (proj2 (proj1 (A1 s S))). lra.
  - intro f. rewrite M2. unfold mean.
    rewrite (total_ext _ _ (fun s => total (grid 0 rows 0 cols) (fun q => W2 p s * W1 s q * f (fst q) (snd q)))).
    + rewrite total_swap. apply total_ext. intros q _.
      rewrite (total_ext _ _ (fun s => f (fst q) (snd q) * (W2 p s * W1 s q))) by (intros; lra). rewrite total_scale. lra.
    + intros s S. rewrite (proj2 (A1 s S) f). unfold mean. rewrite <- total_scale. apply total_ext. intros q _. lra.
Qed.
Lemma recurs_averages rows cols n wh wv : (0 < n)%nat -> (forall i, (i < n)%nat -> fair rows cols (wh i) /\ fair cols rows (wv i)) ->
  averages rows cols (recurs_filter rows cols n wh wv).
Proof.
  intros N F. unfold recurs_filter.
  assert (G : forall m k, (0 < m)%nat -> (k + m <= n)%nat -> averages rows cols
     (fold_left (fun g i => flip (filter_h cols rows (wv i) (flip (filter_h rows cols (wh i) g)))) (seq k m))).
  { induction m as [|m IH]; intros k M K; [ lia |]. cbn [seq fold_left]. destruct m as [|m].
    - cbn [seq fold_left]. apply pass_averages; apply F; lia.
    - apply (averages_compose rows cols (fun g => flip (filter_h cols rows (wv k) (flip (filter_h rows cols (wh k) g))))
        (fold_left (fun g i => flip (filter_h cols rows (wv i) (flip (filter_h rows cols (wh i) g)))) (seq (S k) (S m)))).
      + apply pass_averages; apply F; lia.
      + apply IH; lia. }
  apply G; lia.
Qed.

(** the weights of an image *)
Lemma base_range p i : proper p -> 0 < base p i < 1.
Proof.
  intros (S & R & N). unfold base. split; [ apply exp_pos |]. apply Rlt_le_trans with (exp 0); [| rewrite exp_0; lra ]. apply exp_increasing.
  assert (H2 : 0 < sqrt 2) by (apply sqrt_lt_R0; lra). assert (H3 : 0 < sqrt 3) by (apply sqrt_lt_R0; lra).
  assert (Q : 1 < 4 ^ iters p). { destruct (iters p) as [|k]; [ lia |]. apply Rlt_pow_R1; [ lra | lia ]. }
  assert (H4 : 0 < sqrt (4 ^ iters p - 1)) by (apply sqrt_lt_R0; lra).
  assert (H5 : 0 < 2 ^ (iters p - (i + 1))) by (apply pow_lt; lra).
  assert (D : 0 < sigma_s p * sqrt 3 * 2 ^ (iters p - (i + 1)) / sqrt (4 ^ iters p - 1)).
  { apply Rdiv_lt_0_compat; [| exact H4 ]. repeat apply Rmult_lt_0_compat; assumption. }
  assert (0 < sqrt 2 / (sigma_s p * sqrt 3 * 2 ^ (iters p - (i + 1)) / sqrt (4 ^ iters p - 1))) by now apply Rdiv_lt_0_compat.
  unfold Rdiv in *. replace (- sqrt 2 * / (sigma_s p * sqrt 3 * 2 ^ (iters p - (i + 1)) * / sqrt (4 ^ iters p - 1))) with (- (sqrt 2 * / (sigma_s p * sqrt 3 * 2 ^ (iters p - (i + 1)) * / sqrt (4 ^ iters p - 1)))) by ring. lra.
Qed.
Lemma weight_range p i d : proper p -> 0 < Rpower (base p i) (strength p d) < 1.
Proof.
  intro P. pose proof (base_range p i P) as B. destruct P as (S & R & N). unfold Rpower. split; [ apply exp_pos |].
  apply Rlt_le_trans with (exp 0); [| rewrite exp_0; lra ]. apply exp_increasing. assert (L : ln (base p i) < 0) by (rewrite <- ln_1; apply ln_increasing; lra).
  assert (T : 0 < strength p d).
  { unfold strength. assert (0 <= sigma_s p / sigma_r p * Rabs d); [| lra ]. apply Rmult_le_pos; [ apply Rlt_le, Rdiv_lt_0_compat; lra | apply Rabs_pos ]. }
  assert (0 < strength p d * - ln (base p i)) by (apply Rmult_lt_0_compat; lra). lra.
Qed.
Lemma weight_less p i d e : proper p -> Rpower (base p i) (strength p d) < Rpower (base p i) (strength p e) <-> Rabs e < Rabs d.
Proof.
  intro P. pose proof (base_range p i P) as B. destruct P as (S & R & N). unfold Rpower. assert (L : ln (base p i) < 0) by (rewrite <- ln_1; apply ln_increasing; lra).
  assert (K : 0 < sigma_s p / sigma_r p) by (apply Rdiv_lt_0_compat; lra). unfold strength. set (k := sigma_s p / sigma_r p) in *. set (l := ln (base p i)) in *.
  assert (X : forall a b, (1 + k * a) * l < (1 + k * b) * l <-> b < a).
  { intros a b. assert (E : (1 + k * a) * l - (1 + k * b) * l = (k * - l) * (b - a)) by ring. assert (Q : 0 < k * - l) by (apply Rmult_lt_0_compat; lra). split; intro H; nra. }
  rewrite <- (X (Rabs d) (Rabs e)). split; intro H; [ now apply exp_lt_inv | now apply exp_increasing ].
Qed.
Lemma smooth_averages p rows cols img : proper p -> averages rows cols (smooth p rows cols img).
Proof.
  intro P. apply recurs_averages; [ apply P |]. intros i _. split; intros r c _ _; apply weight_range; exact P.
Qed.

(** statistics under a weighting *)
Section Stats.
  Context (rows cols : Z) (w : Z * Z -> R) (W : weighting rows cols w).
  Notation E := (mean rows cols w).
  Notation dom := (grid 0 rows 0 cols).
  Lemma mean_ext f g : (forall r c, (0 <= r < rows)%Z -> (0 <= c < cols)%Z -> f r c = g r c) -> E f = E g.
  Proof. intro H. apply total_ext. intros q Q. apply in_grid in Q. rewrite H by lia. reflexivity. Qed.
  Lemma mean_const k : E (fun _ _ => k) = k.
  Proof. unfold mean. rewrite (total_ext _ _ (fun q => k * w q)) by (intros; lra). rewrite total_scale, (proj2 W). lra. Qed.
  Lemma mean_plus f g : E (fun r c => f r c + g r c) = E f + E g.
  Proof. unfold mean. rewrite <- total_plus. apply total_ext. intros; lra. Qed.
  Lemma mean_scale k f : E (fun r c => k * f r c) = k * E f.
  Proof. unfold mean. rewrite <- total_scale. apply total_ext. intros; lra. Qed.
  Lemma mean_nonneg f : (forall r c, 0 <= f r c) -> 0 <= E f.
  Proof. intro H. apply total_nonneg. intros q Q. apply Rmult_le_pos; [ apply Rlt_le, W, Q | apply H ]. Qed.
  Definition var (f : image) : R := E (times f f) - E f * E f.
  Definition cov (f g : image) : R := E (times f g) - E f * E g.
  Lemma cov_centred f g : cov f g = E (fun r c => (f r c - E f) * (g r c - E g)).
  Proof.
    unfold cov. assert (H : E (fun r c => (f r c - E f) * (g r c - E g)) = E (fun r c => times f g r c + ((- E g) * f r c + ((- E f) * g r c + E f * E g)))).
    { apply mean_ext. intros. unfold times. lra. }
    rewrite H, mean_plus, mean_plus, mean_plus, !mean_scale, mean_const. lra.
  Qed.
  Lemma var_cov f : var f = cov f f. Proof. reflexivity. Qed.
  Lemma var_nonneg f : 0 <= var f.
  Proof. rewrite var_cov, cov_centred. apply mean_nonneg. intros. apply Rle_0_sqr. Qed.
  (* the quadratic a^2 var f + 2ab cov + b^2 var g is a mean of squares *)
  Lemma quad f g a b : 0 <= a * a * var f + 2 * (a * b) * cov f g + b * b * var g.
  Proof.
    rewrite !var_cov, !cov_centred.
    assert (H : E (fun r c => (a * (f r c - E f) + b * (g r c - E g)) * (a * (f r c - E f) + b * (g r c - E g))) =
      E (fun r c => (a * a) * ((f r c - E f) * (f r c - E f)) + ((2 * (a * b)) * ((f r c - E f) * (g r c - E g)) + (b * b) * ((g r c - E g) * (g r c - E g))))).
    { apply mean_ext. intros. lra. }
    rewrite mean_plus, mean_plus, !mean_scale in H. rewrite Rplus_assoc. rewrite <- H. apply mean_nonneg. intros. apply Rle_0_sqr.
  Qed.
  Lemma cauchy f g : cov f g * cov f g <= var f * var g.
  Proof.
    pose proof (var_nonneg f) as VF. pose proof (var_nonneg g) as VG. destruct (Req_dec (var g) 0) as [Z0|N].
    - destruct (Req_dec (cov f g) 0) as [C0|C0]; [ rewrite C0, Z0; lra |].
      pose proof (quad f g 1 (- ((var f + 1) / (2 * cov f g)))) as Q. rewrite Z0 in Q.
      replace (2 * (1 * - ((var f + 1) / (2 * cov f g))) * cov f g) with (- (var f + 1)) in Q by (field; exact C0). lra.
    - assert (P : 0 < var g) by lra. pose proof (quad f g (var g) (- cov f g)) as Q.
      assert (Q' : 0 <= var g * (var f * var g - cov f g * cov f g)) by lra.
      apply Rmult_le_reg_l with (var g); [ exact P |]. lra.
  Qed.
End Stats.

Lemma score_bounds v1 v2 k : k * k <= v1 * v2 -> exp (-4) <= score v1 v2 k <= 1.
Proof.
  intro C. unfold score. assert (H41 : exp (-4) <= 1) by (rewrite <- exp_0; apply Rlt_le, exp_increasing; lra).
  destruct (Rlt_dec eps (sqrt (v1 * v2))) as [L|_]; [| lra ]. set (d := sqrt (v1 * v2)) in *.
  assert (D : 0 < d) by (unfold eps in L; assert (0 < / 10000000000) by (apply Rinv_0_lt_compat; lra); lra).
  assert (DD : d * d = v1 * v2). { apply sqrt_sqrt. apply Rle_trans with (k * k); [ apply Rle_0_sqr | exact C ]. }
  assert (A : Rabs k <= d). { rewrite <- (Rabs_pos_eq d) by lra. apply Rsqr_le_abs_0. unfold Rsqr. rewrite DD. exact C. }
  assert (B : -1 <= k / d <= 1).
  { assert (A2 : - d <= k <= d) by (unfold Rabs in A; destruct (Rcase_abs k); lra).
    split; apply Rmult_le_reg_r with d; auto; unfold Rdiv; rewrite Rmult_assoc, Rinv_l by lra; lra. }
  assert (exp (-4) <= exp (- (1 - k / d) * 2)).
  { destruct (Req_dec (k / d) (-1)) as [->|]; [ right; f_equal; lra | left; apply exp_increasing; lra ]. }
  split; [ apply Rmin_glb; lra | apply Rmin_r ].
Qed.
Lemma entry_bounds p rows cols img k r c : proper p ->
  (exp (-4) <= entry p rows cols img k r c <= 1 /\ (0 < r + fst (nth k rp1 (0, 0)) < rows /\ 0 < c + snd (nth k rp1 (0, 0)) < cols)%Z) \/
  (entry p rows cols img k r c = 0 /\ ~ (0 < r + fst (nth k rp1 (0, 0)) < rows /\ 0 < c + snd (nth k rp1 (0, 0)) < cols)%Z).
Proof.
  intro P. unfold entry. set (a := nth k rp1 (0, 0)%Z). set (b := nth k rp2 (0, 0)%Z). cbv zeta.
  set (dr := (fst b - fst a)%Z). set (dc := (snd b - snd a)%Z). set (y := (r + fst a)%Z). set (x := (c + snd a)%Z). clearbody y x.
  destruct ((0 <? y) && (y <? rows) && (0 <? x) && (x <? cols))%Z eqn:I.
  - left. rewrite !andb_true_iff, !Z.ltb_lt in I. split; [| lia ].
    destruct (smooth_averages p rows cols img P) as (W & A). destruct (A (y, x)) as (G & M); [ apply in_grid; cbn; lia |].
    cbn [fst snd] in M. rewrite !M. apply score_bounds.
    assert (X : mean rows cols (W (y, x)) (lookup_mix rows cols img dr dc) = mean rows cols (W (y, x)) (times img (lookup rows cols img dr dc))).
    { apply mean_ext. intros u v _ _. unfold lookup_mix, times, lookup. destruct (inside rows cols (u + dr) (v + dc)); lra. }
    rewrite X. apply (cauchy rows cols (W (y, x)) G img (lookup rows cols img dr dc)).
  - right. split; [ reflexivity |]. intro K. apply not_true_iff_false in I. apply I. rewrite !andb_true_iff, !Z.ltb_lt. lia.
Qed.

(** normalization *)
Lemma norm_energy v : norm v = sqrt (energy v).
Proof.
  unfold norm, energy. f_equal. assert (H : forall s, fold_left (fun s x => s + x * x) v s = s + total v (fun x => x * x)).
  { induction v as [|x v IH]; intro s; cbn; [ lra |]. rewrite IH. unfold total. lra. }
  rewrite H. lra.
Qed.
Lemma energy_nonneg v : 0 <= energy v.
Proof. apply total_nonneg. intros. apply Rle_0_sqr. Qed.
Lemma normalize_unit v : v <> [] -> energy (normalize v) = 1.
Proof.
  intro N. unfold normalize. destruct (Rlt_dec eps (norm v)) as [L|_].
  - unfold energy. rewrite total_map. rewrite (total_ext _ _ (fun x => / (norm v * norm v) * (x * x))).
    + rewrite total_scale. fold (energy v).
      assert (D : 0 < norm v) by (unfold eps in L; assert (0 < / 10000000000) by (apply Rinv_0_lt_compat; lra); lra).
      assert (Q : norm v * norm v = energy v) by (rewrite norm_energy; apply sqrt_sqrt, energy_nonneg). rewrite Q.
      apply Rinv_l. rewrite <- Q. assert (0 < norm v * norm v) by now apply Rmult_lt_0_compat. lra.
    + intros x _. field. assert (0 < / 10000000000) by (apply Rinv_0_lt_compat; lra). unfold eps in L. lra.
  - unfold energy. rewrite total_map. assert (H : 0 < INR (length v)) by (apply lt_0_INR; destruct v; [ easy | cbn; lia ]).
    assert (Q : sqrt (1 / INR (length v)) * sqrt (1 / INR (length v)) = 1 / INR (length v)).
    { apply sqrt_sqrt. apply Rlt_le, Rdiv_lt_0_compat; lra. }
    rewrite (total_ext _ _ (fun _ => 1 / INR (length v))) by (intros; exact Q).
    assert (T : forall k (l : list R), total l (fun _ => k) = INR (length l) * k).
    { intro k. induction l as [|y l IH]; [ cbn; lra |]. cbn [length]. rewrite S_INR. change (k + total l (fun _ => k) = (INR (length l) + 1) * k). rewrite IH. lra. }
    rewrite T. field. lra.
Qed.
Lemma normalize_nonneg v : (forall x, In x v -> 0 <= x) -> forall x, In x (normalize v) -> 0 <= x.
Proof.
  intros H x. unfold normalize. destruct (Rlt_dec eps (norm v)) as [L|_]; rewrite in_map_iff; intros (y & <- & Y).
  - assert (D : 0 < norm v) by (unfold eps in L; assert (0 < / 10000000000) by (apply Rinv_0_lt_compat; lra); lra).
    apply Rmult_le_pos; [ now apply H | now apply Rlt_le, Rinv_0_lt_compat ].
  - apply sqrt_pos.
Qed.
Lemma normalize_length v : length (normalize v) = length v.
Proof. unfold normalize. destruct (Rlt_dec eps (norm v)); apply map_length. Qed.

Lemma tables_reach : forall p, In p (rp1 ++ rp2) -> (Z.abs (fst p) <= reach /\ Z.abs (snd p) <= reach)%Z.
Proof.
  change reach with 15%Z. assert (B : forallb (fun p => (Z.abs (fst p) <=? 15) && (Z.abs (snd p) <=? 15))%Z (rp1 ++ rp2) = true) by (vm_compute; reflexivity).
  rewrite forallb_forall in B. intros p I. specialize (B p I). rewrite andb_true_iff, !Z.leb_le in B. exact B.
Qed.
Lemma reach_15 : reach = 15%Z. Proof. vm_compute. reflexivity. Qed.
Lemma rp1_length : length rp1 = 128%nat. Proof. vm_compute. reflexivity. Qed.

Lemma descriptor_unit p rows cols img r c : proper p ->
  length (descriptor p rows cols img r c) = 128%nat /\ energy (descriptor p rows cols img r c) = 1 /\ forall x, In x (descriptor p rows cols img r c) -> 0 <= x.
Proof.
  intro P. unfold descriptor. repeat split.
  - rewrite normalize_length, map_length, seq_length. exact rp1_length.
  - apply normalize_unit. rewrite rp1_length. discriminate.
  - apply normalize_nonneg. intros x. rewrite in_map_iff. intros (k & <- & _).
    destruct (entry_bounds p rows cols img k r c P) as [((H & _) & _)|(H & _)]; [| lra ]. pose proof (exp_pos (-4)). lra.
Qed.
Lemma inner_entries p rows cols img k r c : proper p -> (k < 128)%nat -> (15 < r < rows - 15)%Z -> (15 < c < cols - 15)%Z -> exp (-4) <= entry p rows cols img k r c <= 1.
Proof.
  intros P K R C. destruct (entry_bounds p rows cols img k r c P) as [(H & _)|(_ & N)]; [ exact H |]. exfalso. apply N.
  pose proof (tables_reach (nth k rp1 (0, 0)%Z)) as T. rewrite reach_15 in T.
  assert (I : In (nth k rp1 (0, 0)%Z) (rp1 ++ rp2)) by (apply in_or_app; left; apply nth_In; rewrite rp1_length; exact K).
  specialize (T I). lia.
Qed.
Lemma uniform_entry p rows cols img v k r c : proper p -> (forall y x, (0 <= y < rows)%Z -> (0 <= x < cols)%Z -> img y x = v) ->
  (0 < r + fst (nth k rp1 (0, 0)) < rows)%Z -> (0 < c + snd (nth k rp1 (0, 0)) < cols)%Z -> entry p rows cols img k r c = 1.
Proof.
  intros P U R C. unfold entry. set (a := nth k rp1 (0, 0)%Z) in *. set (b := nth k rp2 (0, 0)%Z). cbv zeta.
  assert (I : ((0 <? r + fst a) && (r + fst a <? rows) && (0 <? c + snd a) && (c + snd a <? cols))%Z = true) by (rewrite !andb_true_iff, !Z.ltb_lt; lia).
  rewrite I. destruct (smooth_averages p rows cols img P) as (W & A).
  destruct (A (r + fst a, c + snd a)%Z) as (G & M); [ apply in_grid; cbn [fst snd]; lia |]. cbn [fst snd] in M.
  rewrite !M. set (w := W (r + fst a, c + snd a)%Z) in *.
  rewrite (mean_ext rows cols w img (fun _ _ => v)) by exact U.
  rewrite (mean_ext rows cols w (times img img) (fun _ _ => v * v)) by (intros; unfold times; rewrite U; auto).
  rewrite !mean_const by exact G. unfold score. replace (v * v - v * v) with 0 by lra. rewrite Rmult_0_l, sqrt_0.
  destruct (Rlt_dec eps 0) as [L|_]; [| reflexivity ]. exfalso. assert (0 < / 10000000000) by (apply Rinv_0_lt_compat; lra). unfold eps in L. lra.
Qed.
Lemma uniform_descriptor p rows cols img v r c : proper p -> (forall y x, (0 <= y < rows)%Z -> (0 <= x < cols)%Z -> img y x = v) ->
  (15 < r < rows - 15)%Z -> (15 < c < cols - 15)%Z -> descriptor p rows cols img r c = repeat (1 / sqrt 128) 128.
Proof.
  intros P U R C. unfold descriptor. rewrite rp1_length.
  assert (E : map (fun k => entry p rows cols img k r c) (seq 0 128) = repeat 1 128).
  { rewrite (map_ext_in _ (fun _ => 1)); [ reflexivity |]. intros k K. apply in_seq in K.
    pose proof (tables_reach (nth k rp1 (0, 0)%Z)) as T. rewrite reach_15 in T.
    assert (I : In (nth k rp1 (0, 0)%Z) (rp1 ++ rp2)) by (apply in_or_app; left; apply nth_In; rewrite rp1_length; lia).
    specialize (T I). apply (uniform_entry p rows cols img v); auto; lia. }
  rewrite E. unfold normalize. assert (N : norm (repeat 1 128) = sqrt 128) by (rewrite norm_energy; f_equal; unfold energy; cbn; lra).
  rewrite N. destruct (Rlt_dec eps (sqrt 128)) as [_|L].
  - reflexivity.
  - exfalso. apply L. unfold eps. apply Rlt_le_trans with 1; [ rewrite <- Rinv_1; apply Rinv_lt_contravar; lra |].
    rewrite <- sqrt_1 at 1. apply sqrt_le_1_alt. lra.
Qed.

(** what an entry says *)
Lemma entry_correlation p rows cols img k y x : proper p -> let a := nth k rp1 (0, 0)%Z in let b := nth k rp2 (0, 0)%Z in
  (0 < y + fst a < rows)%Z -> (0 < x + snd a < cols)%Z -> exists w, weighting rows cols w /\
    (forall f, smooth p rows cols img f (y + fst a)%Z (x + snd a)%Z = mean rows cols w f) /\
    let g := fun r c => if inside rows cols (r + (fst b - fst a)) (c + (snd b - snd a)) then img (r + (fst b - fst a))%Z (c + (snd b - snd a))%Z else 0 in
    let v1 := mean rows cols w (fun r c => (img r c - mean rows cols w img) * (img r c - mean rows cols w img)) in
    let v2 := mean rows cols w (fun r c => (g r c - mean rows cols w g) * (g r c - mean rows cols w g)) in
    let v12 := mean rows cols w (fun r c => (img r c - mean rows cols w img) * (g r c - mean rows cols w g)) in
    (sqrt (v1 * v2) <= eps -> entry p rows cols img k y x = 1) /\
    (eps < sqrt (v1 * v2) -> -1 <= v12 / sqrt (v1 * v2) <= 1 /\ entry p rows cols img k y x = exp (2 * (v12 / sqrt (v1 * v2) - 1))).
Proof.
  intros P a b Y X. destruct (smooth_averages p rows cols img P) as (W & A).
  destruct (A (y + fst a, x + snd a)%Z) as (G & M); [ apply in_grid; cbn [fst snd]; lia |]. cbn [fst snd] in M.
  exists (W (y + fst a, x + snd a)%Z). split; [ exact G |]. split; [ exact M |]. set (w := W (y + fst a, x + snd a)%Z) in *. intros g v1 v2 v12.
  assert (E : entry p rows cols img k y x = score v1 v2 v12).
  { unfold entry. fold a b. cbv zeta.
    assert (I : ((0 <? y + fst a) && (y + fst a <? rows) && (0 <? x + snd a) && (x + snd a <? cols))%Z = true) by (rewrite !andb_true_iff, !Z.ltb_lt; lia).
    rewrite I, !M. f_equal.
    - apply (cov_centred rows cols w G img img).
    - apply (cov_centred rows cols w G g g).
    - change (lookup rows cols img (fst b - fst a) (snd b - snd a)) with g.
      rewrite (mean_ext rows cols w (lookup_mix rows cols img (fst b - fst a) (snd b - snd a)) (times img g)).
      + apply (cov_centred rows cols w G img g).
      + intros u v _ _. unfold lookup_mix, times, g. destruct (inside rows cols (u + (fst b - fst a)) (v + (snd b - snd a))); lra. }
  assert (CS : v12 * v12 <= v1 * v2).
  { unfold v12, v1, v2. rewrite <- (cov_centred rows cols w G img g), <- (cov_centred rows cols w G img img), <- (cov_centred rows cols w G g g).
    apply (cauchy rows cols w G img g). }
  rewrite E. clearbody v1 v2 v12. unfold score. split.
  - intro L. destruct (Rlt_dec eps (sqrt (v1 * v2))); [ lra | reflexivity ].
  - intro L. destruct (Rlt_dec eps (sqrt (v1 * v2))) as [_|N]; [| lra ]. set (d := sqrt (v1 * v2)) in *.
    assert (D : 0 < d) by (unfold eps in L; assert (0 < / 10000000000) by (apply Rinv_0_lt_compat; lra); lra).
    assert (DD : d * d = v1 * v2). { apply sqrt_sqrt. apply Rle_trans with (v12 * v12); [ apply Rle_0_sqr | exact CS ]. }
    assert (B0 : Rabs v12 <= d). { rewrite <- (Rabs_pos_eq d) by lra. apply Rsqr_le_abs_0. unfold Rsqr. rewrite DD. exact CS. }
    assert (B : -1 <= v12 / d <= 1).
    { assert (A2 : - d <= v12 <= d) by (unfold Rabs in B0; destruct (Rcase_abs v12); lra).
      split; apply Rmult_le_reg_r with d; auto; unfold Rdiv; rewrite Rmult_assoc, Rinv_l by lra; lra. }
    split; [ exact B |]. replace (- (1 - v12 / d) * 2) with (2 * (v12 / d - 1)) by lra.
    apply Rmin_left. destruct (Req_dec (v12 / d) 1) as [->|]; [ right; replace (2 * (1 - 1)) with 0 by lra; apply exp_0 |].
    apply Rle_trans with (exp 0); [ left; apply exp_increasing; lra | rewrite exp_0; lra ].
Qed.
Lemma outside_entry p rows cols img k r c : ~ (0 < r + fst (nth k rp1 (0, 0)) < rows /\ 0 < c + snd (nth k rp1 (0, 0)) < cols)%Z -> entry p rows cols img k r c = 0.
Proof.
  intro N. unfold entry. cbv zeta. set (y := (r + fst (nth k rp1 (0, 0)))%Z) in *. set (x := (c + snd (nth k rp1 (0, 0)))%Z) in *.
  destruct ((0 <? y) && (y <? rows) && (0 <? x) && (x <? cols))%Z eqn:I; [| reflexivity ].
  exfalso. apply N. rewrite !andb_true_iff, !Z.ltb_lt in I. lia.
Qed.
Lemma missed : exists rows cols r c k, validated rows cols r c = true /\ (k < length rp1)%nat /\
  (inside rows cols (r + fst (nth k rp1 (0, 0))) (c + snd (nth k rp1 (0, 0))) = true /\ inside rows cols (r + fst (nth k rp2 (0, 0))) (c + snd (nth k rp2 (0, 0))) = true)%Z /\
  forall p img, entry p rows cols img k r c = 0.
Proof.
  exists 100%Z, 100%Z, 15%Z, 15%Z, 24%nat. split; [ vm_compute; reflexivity |]. split; [ rewrite rp1_length; lia |]. split; [ split; vm_compute; reflexivity |].
  intros p img. apply outside_entry. vm_compute. intros (H & _). destruct H as (H & _). discriminate.
Qed.
Lemma validated_iff rows cols r c : validated rows cols r c = true <->
  forall k, (k < 128)%nat -> inside rows cols (r + fst (nth k rp1 (0, 0)%Z)) (c + snd (nth k rp1 (0, 0)%Z)) = true /\ inside rows cols (r + fst (nth k rp2 (0, 0)%Z)) (c + snd (nth k rp2 (0, 0)%Z)) = true.
Proof.
  unfold validated, inside. rewrite reach_15, !andb_true_iff, !Z.leb_le, !Z.ltb_lt. split.
  - intros H k K. assert (L2 : length rp2 = 128%nat) by (vm_compute; reflexivity).
    pose proof (tables_reach (nth k rp1 (0, 0)%Z) (in_or_app _ _ _ (or_introl (nth_In _ _ (eq_ind_r (fun n => (k < n)%nat) K rp1_length))))) as T1.
    pose proof (tables_reach (nth k rp2 (0, 0)%Z) (in_or_app _ _ _ (or_intror (nth_In _ _ (eq_ind_r (fun n => (k < n)%nat) K L2))))) as T2.
    rewrite reach_15 in T1, T2. rewrite !andb_true_iff, !Z.leb_le, !Z.ltb_lt. lia.
  - intro H. (* pairs that reach furthest to the four sides *)
    pose proof (proj1 (H 11%nat ltac:(lia))) as A. pose proof (proj1 (H 24%nat ltac:(lia))) as B. pose proof (proj1 (H 18%nat ltac:(lia))) as C. pose proof (proj1 (H 52%nat ltac:(lia))) as D.
    cbn [nth rp1 fst snd] in A, B, C, D. rewrite !andb_true_iff, !Z.leb_le, !Z.ltb_lt in A, B, C, D. lia.
Qed.
