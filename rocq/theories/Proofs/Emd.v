(* The two distances are least amounts of work. *)
From Coq Require Import ZArith QArith Qabs Qminmax List Bool Permutation Sorted Lia Lqa Setoid Morphisms.
From Verif Require Import Lib.QSum Model.Emd Spec.Emd.
Import ListNotations.
Open Scope Q_scope.

(* ---- on functions ---- *)
Definition ind (i k : nat) : Q := if Nat.leb i k then 1 else 0.
Definition sep (i j k : nat) : Q := ind i k - ind j k.
Definition below (f : nat -> Q) (k : nat) : Q := sum (S k) f.

Lemma sep_values i j k : sep i j k == 0 \/ sep i j k == 1 \/ sep i j k == -1.
Proof. unfold sep, ind. destruct (Nat.leb i k), (Nat.leb j k); [ left | right; left | right; right | left ]; reflexivity. Qed.

Lemma sum_ind n i : (i <= n)%nat -> sum n (fun k => ind i k) == inject_Z (Z.of_nat n - Z.of_nat i).
Proof.
  intros H. replace n with (i + (n - i))%nat at 1 by lia. rewrite sum_split, sum_zero, (sum_ext (n - i) _ (fun _ => 1)), sum_const.
  - rewrite Nat2Z.inj_sub by lia. lra.
  - intros k K. unfold ind. destruct (Nat.leb_spec i (i + k)); [ reflexivity | lia ].
  - intros k K. unfold ind. destruct (Nat.leb_spec i k); [ lia | reflexivity ].
Qed.

Lemma sum_sep n i j : (i < n)%nat -> (j < n)%nat -> sum n (fun k => Qabs (sep i j k)) == inject_Z (line i j).
Proof.
  intros I J. unfold line. destruct (Nat.le_gt_cases i j) as [L|L].
  - transitivity (sum n (fun k => ind i k - ind j k)); [ apply sum_ext | rewrite sum_minus, !sum_ind by lia ]; cycle 1.
    + unfold Qminus. rewrite <- inject_Z_opp, <- inject_Z_plus. rewrite Z.abs_neq by lia.
      replace (Z.of_nat n - Z.of_nat i + - (Z.of_nat n - Z.of_nat j))%Z with (- (Z.of_nat i - Z.of_nat j))%Z by lia. reflexivity.
    + intros k K. apply Qabs_pos. unfold sep, ind. destruct (Nat.leb_spec i k), (Nat.leb_spec j k); lia || lra.
  - transitivity (sum n (fun k => ind j k - ind i k)); [ apply sum_ext | rewrite sum_minus, !sum_ind by lia ]; cycle 1.
    + unfold Qminus. rewrite <- inject_Z_opp, <- inject_Z_plus. rewrite Z.abs_eq by lia.
      replace (Z.of_nat n - Z.of_nat j + - (Z.of_nat n - Z.of_nat i))%Z with (Z.of_nat i - Z.of_nat j)%Z by lia. reflexivity.
    + intros k K. unfold sep. rewrite Qabs_Qminus. apply Qabs_pos. unfold ind. destruct (Nat.leb_spec i k), (Nat.leb_spec j k); lia || lra.
Qed.

Lemma sum_below n f k : (k < n)%nat -> sum n (fun i => f i * ind i k) == below f k.
Proof.
  intros H. unfold below. rewrite <- (sum_upto n (S k) f) by lia. apply sum_ext. intros i I. unfold ind.
  destruct (Nat.leb_spec i k), (Nat.ltb_spec i (S k)); lia || lra.
Qed.

(* what crosses the edge after k *)
Lemma crossing n a b f k : plan n a b f -> (k < n)%nat ->
  sum n (fun i => sum n (fun j => f i j * sep i j k)) == below a k - below b k.
Proof.
  intros (_ & R & C) K.
  transitivity (sum n (fun i => a i * ind i k) - sum n (fun j => b j * ind j k)).
  - rewrite (sum_ext n (fun i => sum n (fun j => f i j * sep i j k)) (fun i => a i * ind i k - sum n (fun j => f i j * ind j k))).
    + rewrite sum_minus. apply Qplus_comp; [ reflexivity | ]. apply Qopp_comp. rewrite sum_swap. apply sum_ext. intros j J.
      rewrite sum_scal_r, (C j J). reflexivity.
    + intros i I. rewrite <- (R i I), <- sum_scal_r, <- sum_minus. apply sum_ext. intros j J. unfold sep. lra.
  - rewrite !sum_below by exact K. reflexivity.
Qed.

Lemma work_edges n f : work n line f == sum n (fun k => sum n (fun i => sum n (fun j => f i j * Qabs (sep i j k)))).
Proof.
  unfold work. rewrite sum_swap. rewrite (sum_swap n n (fun k i => sum n (fun j => f i j * Qabs (sep i j k)))). rewrite sum_swap. apply sum_ext. intros i I.
  rewrite sum_swap. apply sum_ext. intros j J. rewrite sum_scal, sum_sep by assumption. reflexivity.
Qed.

Lemma abs_double n (f : nat -> nat -> Q) : Qabs (sum n (fun i => sum n (f i))) <= sum n (fun i => sum n (fun j => Qabs (f i j))).
Proof. eapply Qle_trans; [ apply sum_abs | ]. apply sum_le. intros. apply sum_abs. Qed.

Lemma line_lower n a b f : plan n a b f -> sum n (fun k => Qabs (below a k - below b k)) <= work n line f.
Proof.
  intros P. rewrite work_edges. apply sum_le. intros k K. rewrite <- (crossing n a b f k P K).
  eapply Qle_trans; [ apply abs_double | ]. apply sum_le. intros i I. apply sum_le. intros j J.
  rewrite Qabs_Qmult. rewrite (Qabs_pos (f i j)) by (apply (proj1 P); assumption). lra.
Qed.

(* the plan that moves quantiles *)
Definition clip (p q x : Q) : Q := Qmax p (Qmin q x).
Definition overlap (p q s t : Q) : Q := clip p q t - clip p q s.

Ltac minmax :=
  repeat match goal with
  | |- context [Qmin ?x ?y] => let H := fresh in let E := fresh in destruct (Q.min_spec x y) as [[H E]|[H E]]; setoid_rewrite E; clear E
  | |- context [Qmax ?x ?y] => let H := fresh in let E := fresh in destruct (Q.max_spec x y) as [[H E]|[H E]]; setoid_rewrite E; clear E
  end.

Lemma clip_mono p q x y : x <= y -> clip p q x <= clip p q y.
Proof. intros H. unfold clip. apply Q.max_le_compat_l, Q.min_le_compat_l, H. Qed.
Lemma clip_low p q x : p <= q -> x <= p -> clip p q x == p.
Proof. intros. unfold clip. minmax; lra. Qed.
Lemma clip_high p q x : p <= q -> q <= x -> clip p q x == q.
Proof. intros. unfold clip. minmax; lra. Qed.
Lemma overlap_sym p q s t : p <= q -> s <= t -> overlap p q s t == overlap s t p q.
Proof. intros. unfold overlap, clip. minmax; lra. Qed.

Definition quantile (a b : nat -> Q) (i j : nat) : Q := overlap (sum i a) (sum (S i) a) (sum j b) (sum (S j) b).

Lemma sum_mono n m f : (n <= m)%nat -> (forall k, (k < m)%nat -> 0 <= f k) -> sum n f <= sum m f.
Proof.
  intros H P. replace m with (n + (m - n))%nat by lia. rewrite sum_split.
  assert (0 <= sum (m - n) (fun k => f (n + k)%nat)) by (apply sum_nonneg; intros; apply P; lia). lra.
Qed.

#[export] Instance clip_comp : Proper (Qeq ==> Qeq ==> Qeq ==> Qeq) clip.
Proof. intros p p' P q q' Q x x' X. unfold clip. rewrite P, Q, X. reflexivity. Qed.
#[export] Instance overlap_comp : Proper (Qeq ==> Qeq ==> Qeq ==> Qeq ==> Qeq) overlap.
Proof. intros p p' P q q' Q s s' A t t' T. unfold overlap. rewrite P, Q, A, T. reflexivity. Qed.

Section Quantile.
  Context (n : nat) (a b : nat -> Q).
  Hypothesis a0 : forall k, (k < n)%nat -> 0 <= a k.
  Hypothesis b0 : forall k, (k < n)%nat -> 0 <= b k.
  Hypothesis same : sum n a == sum n b.

  Lemma rows i : (i < n)%nat -> sum n (quantile a b i) == a i.
  Proof.
    intros I. unfold quantile, overlap. rewrite (sum_telescope n (fun j => clip (sum i a) (sum (S i) a) (sum j b))).
    assert (L : sum i a <= sum (S i) a) by (apply sum_mono; [ lia | intros; apply a0; lia ]).
    rewrite clip_high, clip_low; [ cbn [sum]; lra | exact L | | exact L | ].
    - cbn [sum]. apply sum_nonneg. intros; apply a0; lia.
    - rewrite <- same. apply sum_mono; [ lia | exact a0 ].
  Qed.
  Lemma quantile_sym i j : (i < n)%nat -> (j < n)%nat -> quantile a b i j == quantile b a j i.
  Proof. intros I J. unfold quantile. apply overlap_sym; apply sum_mono; try lia; intros; [ apply a0 | apply b0 ]; lia. Qed.
  Lemma quantile_nonneg i j : (j < n)%nat -> 0 <= quantile a b i j.
  Proof. intros J. unfold quantile, overlap. assert (H := clip_mono (sum i a) (sum (S i) a) (sum j b) (sum (S j) b)).
    assert (sum j b <= sum (S j) b) by (apply sum_mono; [ lia | intros; apply b0; lia ]). specialize (H H0). lra. Qed.
  (* a bin that lies entirely before another gives it nothing *)
  Lemma apart i j : (i < n)%nat -> (j < n)%nat -> sum (S j) b <= sum i a -> quantile a b i j == 0.
  Proof.
    intros I J H. unfold quantile, overlap.
    assert (L : sum i a <= sum (S i) a) by (apply sum_mono; [ lia | intros; apply a0; lia ]).
    assert (M : sum j b <= sum (S j) b) by (apply sum_mono; [ lia | intros; apply b0; lia ]).
    rewrite !clip_low by lra. lra.
  Qed.
End Quantile.

Lemma quantile_plan n a b : (forall k, (k < n)%nat -> 0 <= a k) -> (forall k, (k < n)%nat -> 0 <= b k) -> sum n a == sum n b ->
  plan n a b (quantile a b).
Proof.
  intros A B E. split; [ | split ].
  - intros i j I J. apply (quantile_nonneg n); auto.
  - intros i I. apply (rows n); auto.
  - intros j J. rewrite (sum_ext n _ (quantile b a j)) by (intros; apply (quantile_sym n); auto). apply (rows n); auto. symmetry. exact E.
Qed.

Lemma line_attained n a b : (forall k, (k < n)%nat -> 0 <= a k) -> (forall k, (k < n)%nat -> 0 <= b k) -> sum n a == sum n b ->
  work n line (quantile a b) == sum n (fun k => Qabs (below a k - below b k)).
Proof.
  intros A B E. assert (P := quantile_plan n a b A B E). rewrite work_edges. apply sum_ext. intros k K.
  rewrite <- (crossing n a b _ k P K).
  destruct (Qlt_le_dec (below a k) (below b k)) as [L|L].
  - rewrite Qabs_neg by (rewrite (crossing n a b _ k P K); lra).
    transitivity ((-1) * sum n (fun i => sum n (fun j => quantile a b i j * sep i j k))); [ | lra ].
    rewrite <- sum_scal. apply sum_ext. intros i I. rewrite <- sum_scal. apply sum_ext. intros j J.
    destruct (Nat.leb_spec i k) as [IK|IK], (Nat.leb_spec j k) as [JK|JK].
    + setoid_replace (sep i j k) with 0 by (unfold sep, ind; rewrite (proj2 (Nat.leb_le _ _) IK), (proj2 (Nat.leb_le _ _) JK); lra); change (Qabs 0) with 0; change (Qabs 1) with 1; change (Qabs (-1)) with 1; lra.
    + assert (Z : quantile a b i j == 0).
      { rewrite (quantile_sym n) by auto. apply (apart n); auto. apply Qle_trans with (below a k); [ apply sum_mono; [ lia | intros; apply A; lia ] | ].
        apply Qle_trans with (below b k); [ lra | apply sum_mono; [ lia | intros; apply B; lia ] ]. }
      rewrite Z. lra.
    + setoid_replace (sep i j k) with (-1) by (unfold sep, ind; rewrite (proj2 (Nat.leb_gt _ _) IK), (proj2 (Nat.leb_le _ _) JK); lra); change (Qabs 0) with 0; change (Qabs 1) with 1; change (Qabs (-1)) with 1; lra.
    + setoid_replace (sep i j k) with 0 by (unfold sep, ind; rewrite (proj2 (Nat.leb_gt _ _) IK), (proj2 (Nat.leb_gt _ _) JK); lra); change (Qabs 0) with 0; change (Qabs 1) with 1; change (Qabs (-1)) with 1; lra.
  - rewrite Qabs_pos by (rewrite (crossing n a b _ k P K); lra).
    apply sum_ext. intros i I. apply sum_ext. intros j J.
    destruct (Nat.leb_spec i k) as [IK|IK], (Nat.leb_spec j k) as [JK|JK].
    + setoid_replace (sep i j k) with 0 by (unfold sep, ind; rewrite (proj2 (Nat.leb_le _ _) IK), (proj2 (Nat.leb_le _ _) JK); lra); change (Qabs 0) with 0; change (Qabs 1) with 1; change (Qabs (-1)) with 1; lra.
    + setoid_replace (sep i j k) with 1 by (unfold sep, ind; rewrite (proj2 (Nat.leb_le _ _) IK), (proj2 (Nat.leb_gt _ _) JK); lra); change (Qabs 0) with 0; change (Qabs 1) with 1; change (Qabs (-1)) with 1; lra.
    + assert (Z : quantile a b i j == 0).
      { apply (apart n); auto. apply Qle_trans with (below b k); [ apply sum_mono; [ lia | intros; apply B; lia ] | ].
        apply Qle_trans with (below a k); [ lra | apply sum_mono; [ lia | intros; apply A; lia ] ]. }
      rewrite Z. lra.
    + setoid_replace (sep i j k) with 0 by (unfold sep, ind; rewrite (proj2 (Nat.leb_gt _ _) IK), (proj2 (Nat.leb_gt _ _) JK); lra); change (Qabs 0) with 0; change (Qabs 1) with 1; change (Qabs (-1)) with 1; lra.
Qed.

Theorem line_least n a b : (forall k, (k < n)%nat -> 0 <= a k) -> (forall k, (k < n)%nat -> 0 <= b k) -> sum n a == sum n b ->
  least_work n line a b (sum n (fun k => Qabs (below a k - below b k))).
Proof.
  intros A B E. split; [ intros f P; apply line_lower, P | ].
  exists (quantile a b). split; [ apply quantile_plan; auto | apply line_attained; auto ].
Qed.

(* ---- the circle ---- *)
Definition wrap (n i j : nat) : Q :=
  if Z.leb (line i j) (Z.of_nat n - line i j) then 0 else if Nat.leb i j then -1 else 1.

Lemma sum_turn n i j : (i < n)%nat -> (j < n)%nat -> sum n (fun k => Qabs (sep i j k + wrap n i j)) == inject_Z (circle n i j).
Proof.
  intros I J. unfold wrap, circle. destruct (Z.leb_spec (line i j) (Z.of_nat n - line i j)) as [L|L].
  - rewrite Z.min_l by exact L. rewrite <- (sum_sep n i j I J). apply sum_ext. intros k K. apply Qabs_wd. lra.
  - rewrite Z.min_r by lia. transitivity (sum n (fun k => 1 - Qabs (sep i j k))).
    + apply sum_ext. intros k K. unfold sep, ind. destruct (Nat.leb_spec i j), (Nat.leb_spec i k), (Nat.leb_spec j k); try lia; reflexivity.
    + rewrite sum_minus, sum_const, sum_sep by assumption. unfold Qminus. rewrite Qmult_1_r, <- inject_Z_opp, <- inject_Z_plus. reflexivity.
Qed.

Lemma circle_edges n f : work n (circle n) f == sum n (fun k => sum n (fun i => sum n (fun j => f i j * Qabs (sep i j k + wrap n i j)))).
Proof.
  unfold work. rewrite sum_swap. rewrite (sum_swap n n (fun k i => sum n (fun j => f i j * Qabs (sep i j k + wrap n i j)))). rewrite sum_swap.
  apply sum_ext. intros i I. rewrite sum_swap. apply sum_ext. intros j J. rewrite sum_scal, sum_turn by assumption. reflexivity.
Qed.

Lemma circle_lower n a b f : plan n a b f -> exists c, sum n (fun k => Qabs (below a k - below b k - c)) <= work n (circle n) f.
Proof.
  intros P. exists (- sum n (fun i => sum n (fun j => f i j * wrap n i j))). rewrite circle_edges. apply sum_le. intros k K.
  rewrite <- (crossing n a b f k P K).
  setoid_replace (sum n (fun i => sum n (fun j => f i j * sep i j k)) - - sum n (fun i => sum n (fun j => f i j * wrap n i j)))
    with (sum n (fun i => sum n (fun j => f i j * (sep i j k + wrap n i j)))).
  - eapply Qle_trans; [ apply abs_double | ]. apply sum_le. intros i I. apply sum_le. intros j J.
    rewrite Qabs_Qmult. rewrite (Qabs_pos (f i j)) by (apply (proj1 P); assumption). lra.
  - setoid_replace (sum n (fun i => sum n (fun j => f i j * sep i j k)) - - sum n (fun i => sum n (fun j => f i j * wrap n i j)))
      with (sum n (fun i => sum n (fun j => f i j * sep i j k)) + sum n (fun i => sum n (fun j => f i j * wrap n i j))) by lra.
    rewrite <- sum_plus. apply sum_ext. intros i I. rewrite <- sum_plus. apply sum_ext. intros j J. lra.
Qed.

Definition turn (n r k : nat) : nat := if Nat.ltb k (n - r) then (k + r)%nat else (k - (n - r))%nat.
Lemma turn_lt n r k : (r <= n)%nat -> (k < n)%nat -> (turn n r k < n)%nat.
Proof. intros. unfold turn. destruct (Nat.ltb_spec k (n - r)); lia. Qed.
Lemma turn_back n r k : (r <= n)%nat -> (k < n)%nat -> turn n r (turn n (n - r) k) = k.
Proof. intros. unfold turn. destruct (Nat.ltb_spec k (n - (n - r))); [ destruct (Nat.ltb_spec (k + (n - r)) (n - r)) | destruct (Nat.ltb_spec (k - (n - (n - r))) (n - r)) ]; lia. Qed.
Lemma turn_circle n r i j : (r <= n)%nat -> (i < n)%nat -> (j < n)%nat -> (circle n (turn n r i) (turn n r j) <= line i j)%Z.
Proof. intros. unfold circle, line, turn. destruct (Nat.ltb_spec i (n - r)), (Nat.ltb_spec j (n - r)); lia. Qed.
Lemma turn_sum n r f : (r <= n)%nat -> sum n (fun k => f (turn n r k)) == sum n f.
Proof. intros H. apply sum_rotate, H. Qed.

Section Circle.
  Context (n m : nat) (a b : nat -> Q).
  Hypothesis inside : (m < n)%nat.
  Hypothesis a0 : forall k, (k < n)%nat -> 0 <= a k.
  Hypothesis b0 : forall k, (k < n)%nat -> 0 <= b k.
  Hypothesis same : sum n a == sum n b.
  Let r := S m.
  Let a' k := a (turn n r k).
  Let b' k := b (turn n r k).
  Let cut i j := quantile a' b' (turn n (n - r) i) (turn n (n - r) j).
  Let D k := below a k - below b k.

  Lemma below_turn (f : nat -> Q) k : (k < n)%nat -> below (fun i => f (turn n r i)) k ==
    (if Nat.ltb k (n - r) then below f (turn n r k) - below f m else sum n f - below f m + below f (turn n r k)).
  Proof.
    intros K. unfold below. fold r. destruct (Nat.ltb_spec k (n - r)) as [L|L].
    - unfold turn at 2. destruct (Nat.ltb_spec k (n - r)); [ | lia ]. replace (S (k + r))%nat with (r + S k)%nat by lia. rewrite sum_split.
      rewrite (sum_ext (S k) (fun i => f (turn n r i)) (fun i => f (r + i)%nat)); [ lra | ].
      intros i I. unfold turn. destruct (Nat.ltb_spec i (n - r)); [ | lia ]. rewrite Nat.add_comm. reflexivity.
    - unfold turn at 2. destruct (Nat.ltb_spec k (n - r)); [ lia | ].
      replace (S k) with ((n - r) + S (k - (n - r)))%nat at 1 by lia. rewrite sum_split.
      rewrite (sum_ext (n - r) (fun i => f (turn n r i)) (fun i => f (r + i)%nat)).
      + rewrite (sum_ext (S (k - (n - r))) (fun i => f (turn n r (n - r + i))) f).
        * assert (T : sum n f == sum r f + sum (n - r) (fun i => f (r + i)%nat)) by (rewrite <- sum_split; replace (r + (n - r))%nat with n by (unfold r; lia); reflexivity).
          rewrite T. lra.
        * intros i I. unfold turn. destruct (Nat.ltb_spec (n - r + i) (n - r)); [ lia | ]. replace (n - r + i - (n - r))%nat with i by lia. reflexivity.
      + intros i I. unfold turn. destruct (Nat.ltb_spec i (n - r)); [ | lia ]. rewrite Nat.add_comm. reflexivity.
  Qed.

  Lemma cut_plan : plan n a b cut.
  Proof.
    assert (R : (r <= n)%nat) by (unfold r; lia).
    assert (P : plan n a' b' (quantile a' b')).
    { apply quantile_plan; [ intros; apply a0, turn_lt; auto | intros; apply b0, turn_lt; auto | ].
      unfold a', b'. rewrite !turn_sum by exact R. exact same. }
    destruct P as (N & Rw & Cl). split; [ | split ].
    - intros i j I J. apply N; apply turn_lt; lia.
    - intros i I. unfold cut. rewrite (turn_sum n (n - r) (quantile a' b' (turn n (n - r) i))) by lia. rewrite Rw by (apply turn_lt; lia).
      unfold a'. rewrite turn_back by auto. reflexivity.
    - intros j J. unfold cut. rewrite (turn_sum n (n - r) (fun i => quantile a' b' i (turn n (n - r) j))) by lia. rewrite Cl by (apply turn_lt; lia).
      unfold b'. rewrite turn_back by auto. reflexivity.
  Qed.

  Lemma cut_work : work n (circle n) cut <= sum n (fun k => Qabs (D k - D m)).
  Proof.
    assert (R : (r <= n)%nat) by (unfold r; lia).
    apply Qle_trans with (work n line (quantile a' b')).
    - unfold work. rewrite <- (turn_sum n (n - r) (fun i => sum n (fun j => quantile a' b' i j * inject_Z (line i j)))) by lia.
      apply sum_le. intros i I. rewrite <- (turn_sum n (n - r) (fun j => quantile a' b' (turn n (n - r) i) j * inject_Z (line (turn n (n - r) i) j))) by lia.
      apply sum_le. intros j J. unfold cut. setoid_rewrite (Qmult_comm (quantile _ _ _ _)). apply Qmult_le_compat_r.
      + rewrite <- Zle_Qle. rewrite <- (turn_back n r i), <- (turn_back n r j) at 1 by auto. apply turn_circle; auto; apply turn_lt; lia.
      + apply (quantile_nonneg n); [ | apply turn_lt; lia ]. intros; apply b0, turn_lt; auto.
    - rewrite line_attained.
      + rewrite <- (turn_sum n r (fun k => Qabs (D k - D m))) by exact R. apply sum_le. intros k K.
        unfold a', b'. rewrite !below_turn by exact K. unfold D.
        destruct (Nat.ltb k (n - r)); [ | rewrite same ]; apply Qle_lteq; right; apply Qabs_wd; lra.
      + intros; apply a0, turn_lt; auto.
      + intros; apply b0, turn_lt; auto.
      + unfold a', b'. rewrite !turn_sum by exact R. exact same.
  Qed.

  Theorem circle_least : (forall c, sum n (fun k => Qabs (D k - D m)) <= sum n (fun k => Qabs (D k - c))) ->
    least_work n (circle n) a b (sum n (fun k => Qabs (D k - D m))).
  Proof.
    intros M. assert (L : forall f, plan n a b f -> sum n (fun k => Qabs (D k - D m)) <= work n (circle n) f).
    { intros f P. destruct (circle_lower n a b f P) as [c H]. eapply Qle_trans; [ apply (M c) | exact H ]. }
    split; [ exact L | ]. exists cut. split; [ exact cut_plan | ]. apply Qle_antisym; [ exact cut_work | apply L, cut_plan ].
  Qed.
End Circle.
