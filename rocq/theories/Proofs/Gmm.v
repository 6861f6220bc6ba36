(* Estimation of Gaussian mixtures. *)
From Coq Require Import ZArith QArith Qabs List Bool Lia Lqa Setoid Morphisms.
From Verif Require Import Lib.QSum Model.Gmm Spec.Gmm Spec.GmmDensity.
Import ListNotations.
Open Scope Q_scope.

(* ---- forms ---- *)
Lemma form_ext n a b x : (forall i j, (i < n)%nat -> (j < n)%nat -> a i j == b i j) -> form n a x == form n b x.
Proof. intros H. apply sum_ext. intros i I. apply sum_ext. intros j J. rewrite (H i j I J). reflexivity. Qed.
Lemma form_plus n a b x : form n (fun i j => a i j + b i j) x == form n a x + form n b x.
Proof.
  unfold form. rewrite <- sum_plus. apply sum_ext. intros i I. rewrite <- sum_plus. apply sum_ext. intros j J. ring.
Qed.
Lemma form_scal n k a x : form n (fun i j => k * a i j) x == k * form n a x.
Proof.
  unfold form. rewrite <- sum_scal. apply sum_ext. intros i I. rewrite <- sum_scal. apply sum_ext. intros j J. ring.
Qed.
Lemma form_dyad n u x : form n (fun i j => u i * u j) x == sum n (fun i => x i * u i) * sum n (fun i => x i * u i).
Proof.
  unfold form. rewrite <- sum_scal_r. apply sum_ext. intros i I. rewrite <- sum_scal. apply sum_ext. intros j J. ring.
Qed.
Lemma square_nonneg x : 0 <= x * x.
Proof. nra. Qed.
Lemma form_squares {A} (u : A -> nat -> Q) l n x : 0 <= form n (fun i j => lsum (map (fun s => u s i * u s j) l)) x.
Proof.
  induction l as [|s l IH].
  - unfold form. rewrite sum_zero; [ lra | ]. intros i I. apply sum_zero. intros j J. cbn. ring.
  - cbn [map lsum fold_right]. rewrite form_plus, form_dyad. assert (H := square_nonneg (sum n (fun i => x i * u s i))). unfold lsum in IH. lra.
Qed.

Definition nonnegative (n : nat) (m : mat) : Prop := forall x, 0 <= form n m x.
Definition symmetric (m : mat) : Prop := forall i j, m i j == m j i.

Lemma length_pos {A} (l : list A) : l <> [] -> 0 < inject_Z (Z.of_nat (length l)).
Proof. intros H. destruct l; [ congruence | ]. change 0 with (inject_Z 0). rewrite <- Zlt_Qlt. cbn. lia. Qed.

Lemma cov_nonnegative n l : l <> [] -> nonnegative n (cov_of l).
Proof.
  intros H x. unfold cov_of, average.
  rewrite (form_ext n _ (fun i j => / size l * lsum (map (fun s => (s i - mean_of l i) * (s j - mean_of l j)) l))) by (intros; unfold Qdiv; ring).
  rewrite form_scal. apply Qmult_le_0_compat; [ apply Qinv_le_0_compat, Qlt_le_weak, length_pos, H | ].
  apply (form_squares (fun s i => s i - mean_of l i)).
Qed.
Lemma lsum_map_ext {A} (f g : A -> Q) l : (forall s, f s == g s) -> lsum (map f l) == lsum (map g l).
Proof. intros H. induction l as [|s l IH]; cbn [map lsum fold_right]; [ reflexivity | ]. unfold lsum in IH. rewrite IH, H. reflexivity. Qed.
Lemma cov_symmetric l : symmetric (cov_of l).
Proof. intros i j. unfold cov_of, average. apply Qmult_comp; [ | reflexivity ]. apply lsum_map_ext. intros. ring. Qed.

Lemma noise_form n m e x : form n (fun i j => if Nat.eqb i j then m i j + e else m i j) x == form n m x + e * sum n (fun i => x i * x i).
Proof.
  rewrite (form_ext n _ (fun i j => m i j + (if Nat.eqb i j then e else 0))) by (intros i j _ _; destruct (Nat.eqb i j); ring).
  rewrite form_plus. apply Qplus_comp; [ reflexivity | ]. rewrite <- sum_scal. apply sum_ext. intros i I.
  rewrite <- (sum_one n i (fun j => e * (x i * x j)) I). apply sum_ext. intros j J.
  rewrite (Nat.eqb_sym j i). destruct (Nat.eqb_spec i j) as [ <- | ]; ring.
Qed.
Lemma squares_pos n x : (exists i, (i < n)%nat /\ ~ x i == 0) -> 0 < sum n (fun i => x i * x i).
Proof.
  intros (i & I & H). assert (L : x i * x i <= sum n (fun i => x i * x i)).
  { rewrite <- (sum_one n i (fun k => x k * x k) I). apply sum_le. intros k K. destruct (Nat.eqb k i); [ lra | apply square_nonneg ]. }
  assert (P : 0 < x i * x i) by (destruct (Q_dec (x i) 0) as [[N|N]|N]; [ nra | nra | contradiction ]). lra.
Qed.
Lemma noise_definite n m : nonnegative n m -> positive_definite n (fun i j => if Nat.eqb i j then m i j + (1 # 100) else m i j).
Proof. intros N x X. rewrite noise_form. assert (A := N x). assert (B := squares_pos n x X). lra. Qed.

(* ---- inverses ---- *)
Lemma invert_some n m : ~ det n m == 0 -> exists x, invert n m = Some x.
Proof. intros H. unfold invert. destruct (Qeq_bool (det n m) 0) eqn:E; [ apply Qeq_bool_iff in E; contradiction | eauto ]. Qed.
Lemma invert_inverse n m x : (1 <= n <= 3)%nat -> invert n m = Some x -> inverse_of n m x.
Proof.
  intros N H. unfold invert in H. destruct (Qeq_bool (det n m) 0) eqn:E; [ discriminate | ]. injection H as <-.
  assert (D : ~ det n m == 0) by (intros C; apply Qeq_bool_iff in C; congruence). clear E.
  destruct n as [|[|[|[|n]]]]; try lia; cbn [det] in *; intros i j I J; unfold product; cbn [sum].
  - destruct i as [|i], j as [|j]; try lia. cbn [Nat.eqb]. split; field; exact D.
  - destruct i as [|[|i]], j as [|[|j]]; try lia; cbn [Nat.eqb]; split; field; exact D.
  - destruct i as [|[|[|i]]], j as [|[|[|j]]]; try lia; cbn [Nat.eqb]; split; field; exact D.
Qed.

Lemma inverse_det n m x : (1 <= n <= 3)%nat -> inverse_of n m x -> forall y, (forall i, (i < n)%nat -> sum n (fun j => m i j * y j) == 0) -> forall i, (i < n)%nat -> y i == 0.
Proof.
  intros N X y Y i I.
  assert (E : sum n (fun k => x i k * sum n (fun j => m k j * y j)) == y i).
  { rewrite (sum_ext n _ (fun k => sum n (fun j => x i k * m k j * y j))) by (intros; rewrite <- sum_scal; apply sum_ext; intros; ring).
    rewrite sum_swap. rewrite <- (sum_one n i y I). apply sum_ext. intros j J. rewrite sum_scal_r.
    destruct (X i j I J) as [_ P]. unfold product in P. rewrite P. rewrite (Nat.eqb_sym j i). destruct (Nat.eqb i j); ring. }
  rewrite <- E. apply sum_zero. intros k K. rewrite (Y k K). ring.
Qed.

(* nonnegative and invertible is definite *)
Lemma form_line n m x y t : symmetric m -> form n m (fun i => x i - t * y i) ==
  form n m x - 2 * t * sum n (fun i => y i * sum n (fun j => m i j * x j)) + t * t * form n m y.
Proof.
  intros S. unfold form.
  assert (B : sum n (fun i => sum n (fun j => x i * m i j * y j)) == sum n (fun i => y i * sum n (fun j => m i j * x j))).
  { rewrite sum_swap. apply sum_ext. intros j J. rewrite <- sum_scal. apply sum_ext. intros i I. rewrite (S i j). ring. }
  assert (C : sum n (fun i => sum n (fun j => y i * m i j * x j)) == sum n (fun i => y i * sum n (fun j => m i j * x j))).
  { apply sum_ext. intros i I. rewrite <- sum_scal. apply sum_ext. intros j J. ring. }
  transitivity (sum n (fun i => sum n (fun j => x i * m i j * x j)) - t * sum n (fun i => sum n (fun j => x i * m i j * y j))
    - t * sum n (fun i => sum n (fun j => y i * m i j * x j)) + t * t * sum n (fun i => sum n (fun j => y i * m i j * y j))).
  - rewrite <- !sum_scal, <- !sum_minus, <- sum_plus. apply sum_ext. intros i I.
    rewrite <- !sum_scal, <- !sum_minus, <- sum_plus. apply sum_ext. intros j J. ring.
  - rewrite B, C. ring.
Qed.
Lemma definite n m : (1 <= n <= 3)%nat -> symmetric m -> nonnegative n m -> ~ det n m == 0 -> positive_definite n m.
Proof.
  intros N S P D x (i & I & X). destruct (Qlt_le_dec 0 (form n m x)) as [|L]; [ assumption | ]. exfalso. apply X.
  destruct (invert_some n m D) as (z & Z). apply (inverse_det n m z N (invert_inverse n m z N Z)); [ | exact I ].
  set (y := fun i => sum n (fun j => m i j * x j)). change (forall i, (i < n)%nat -> y i == 0).
  assert (F : form n m x == 0) by (assert (A := P x); lra).
  set (b := sum n (fun i => y i * y i)). set (q := form n m y). assert (Q0 : 0 <= q) by apply P.
  assert (B0 : b == 0).
  { assert (A := P (fun i => x i - (b / (q + 1)) * y i)). rewrite form_line in A by exact S. fold y in A. rewrite F in A.
    change (sum n (fun i0 => y i0 * sum n (fun j => m i0 j * x j))) with b in A. fold q in A.
    assert (A' : 0 <= - (b * b) * (q + 2)).
    { setoid_replace (- (b * b) * (q + 2)) with ((0 - 2 * (b / (q + 1)) * b + b / (q + 1) * (b / (q + 1)) * q) * ((q + 1) * (q + 1))) by (field; lra).
      apply Qmult_le_0_compat; [ exact A | nra ]. }
    destruct (Q_dec b 0) as [[C|C]|C]; [ nra | nra | exact C ]. }
  intros k K. assert (L2 : y k * y k <= b).
  { unfold b. rewrite <- (sum_one n k (fun i => y i * y i) K). apply sum_le. intros j J. destruct (Nat.eqb j k); [ lra | apply square_nonneg ]. }
  destruct (Q_dec (y k) 0) as [[C|C]|C]; [ nra | nra | exact C ].
Qed.

(* a definite matrix has a positive determinant *)
Definition put3 (a b c : Q) : nat -> Q := fun i => match i with 0%nat => a | 1%nat => b | 2%nat => c | _ => 0 end.
Lemma det_positive n m : (1 <= n <= 3)%nat -> symmetric m -> positive_definite n m -> 0 < det n m.
Proof.
  intros N S P.
  assert (M0 : 0 < m 0%nat 0%nat).
  { assert (A := P (put3 1 0 0)). assert (X : exists i, (i < n)%nat /\ ~ put3 1 0 0 i == 0) by (exists 0%nat; split; [ lia | discriminate ]).
    specialize (A X). unfold form in A. destruct n as [|[|[|[|n]]]]; try lia; cbn [sum put3] in A; lra. }
  destruct n as [|[|[|[|n]]]]; try lia; cbn [det].
  - exact M0.
  - assert (A := P (put3 (- m 0%nat 1%nat) (m 0%nat 0%nat) 0)).
    assert (X : exists i, (i < 2)%nat /\ ~ put3 (- m 0%nat 1%nat) (m 0%nat 0%nat) 0 i == 0) by (exists 1%nat; split; [ lia | cbn; lra ]).
    specialize (A X). unfold form in A. cbn [sum put3] in A. rewrite (S 1%nat 0%nat) in *.
    assert (B : 0 < m 0%nat 0%nat * (m 0%nat 0%nat * m 1%nat 1%nat - m 0%nat 1%nat * m 0%nat 1%nat)) by lra. nra.
  - set (u := m 0%nat 0%nat * m 1%nat 1%nat - m 0%nat 1%nat * m 0%nat 1%nat).
    assert (U : 0 < u).
    { assert (A := P (put3 (- m 0%nat 1%nat) (m 0%nat 0%nat) 0)).
      assert (X : exists i, (i < 3)%nat /\ ~ put3 (- m 0%nat 1%nat) (m 0%nat 0%nat) 0 i == 0) by (exists 1%nat; split; [ lia | cbn; lra ]).
      specialize (A X). unfold form in A. cbn [sum put3] in A. rewrite (S 1%nat 0%nat) in A.
      assert (B : 0 < m 0%nat 0%nat * u) by (unfold u; lra). nra. }
    set (v := put3 (m 0%nat 1%nat * m 1%nat 2%nat - m 0%nat 2%nat * m 1%nat 1%nat) (m 0%nat 2%nat * m 0%nat 1%nat - m 0%nat 0%nat * m 1%nat 2%nat) u).
    assert (A := P v). assert (X : exists i, (i < 3)%nat /\ ~ v i == 0) by (exists 2%nat; split; [ lia | cbn; lra ]). specialize (A X).
    rewrite (S 1%nat 0%nat), (S 2%nat 0%nat), (S 2%nat 1%nat).
    set (d := m 0%nat 0%nat * (m 1%nat 1%nat * m 2%nat 2%nat - m 1%nat 2%nat * m 1%nat 2%nat) -
      m 0%nat 1%nat * (m 0%nat 1%nat * m 2%nat 2%nat - m 1%nat 2%nat * m 0%nat 2%nat) + m 0%nat 2%nat * (m 0%nat 1%nat * m 1%nat 2%nat - m 1%nat 1%nat * m 0%nat 2%nat)).
    assert (B : form 3 m v == u * d).
    { unfold form. cbn [sum v put3]. rewrite (S 1%nat 0%nat), (S 2%nat 0%nat), (S 2%nat 1%nat). unfold u, d. ring. }
    rewrite B in A. nra.
Qed.

Lemma det_laplace n m : (1 <= n <= 3)%nat -> det n m == laplace n m.
Proof. intros N. destruct n as [|[|[|[|n]]]]; try lia; cbn [det laplace sum minor Nat.even Nat.ltb Nat.leb]; unfold minor; cbn; ring. Qed.
Lemma det_ext n a b : (forall i j, a i j == b i j) -> det n a == det n b.
Proof. intros H. destruct n as [|[|[|[|n]]]]; cbn [det]; rewrite ?H; reflexivity. Qed.

(* ---- what the sums hold ---- *)
Definition feed (l : learner) (p : nat * vec) : learner := addSample (fst p) (snd p) l.
Record tracks (l : learner) (h : list (nat * vec)) : Prop := Tracks {
  t_sums : forall c i, sums l c i == lsum (map (fun s => s i) (of_comp c h));
  t_prods : forall c i j, prods l c i j == lsum (map (fun s => s i * s j) (of_comp c h));
  t_counts : forall c, counts l c = Z.of_nat (length (of_comp c h));
  t_tot : tot l = Z.of_nat (length h) }.
Lemma lsum_app a b : lsum (a ++ b) == lsum a + lsum b.
Proof. induction a as [|x a IH]; cbn [app lsum fold_right]; [ unfold lsum; lra | ]. unfold lsum in *. rewrite IH. lra. Qed.
Lemma of_comp_app c a b : of_comp c (a ++ b) = of_comp c a ++ of_comp c b.
Proof. unfold of_comp. rewrite filter_app, map_app. reflexivity. Qed.
Lemma feed_tracks l h p : tracks l h -> tracks (feed l p) (h ++ [p]).
Proof.
  intros [A B C D]. destruct p as [c s]. unfold feed, addSample. cbn [fst snd].
  assert (O : forall k, of_comp k (h ++ [(c, s)]) = of_comp k h ++ (if Nat.eqb k c then [s] else [])).
  { intros k. rewrite of_comp_app. f_equal. unfold of_comp. cbn. rewrite (Nat.eqb_sym c k). destruct (Nat.eqb k c); reflexivity. }
  split; cbn [sums prods counts tot]; unfold set_at.
  - intros k i. rewrite O. destruct (Nat.eqb_spec k c) as [ -> | ].
    + rewrite map_app, lsum_app, <- A. cbn. lra.
    + rewrite app_nil_r. apply A.
  - intros k i j. rewrite O. destruct (Nat.eqb_spec k c) as [ -> | ].
    + rewrite map_app, lsum_app, <- B. cbn. lra.
    + rewrite app_nil_r. apply B.
  - intros k. rewrite O. destruct (Nat.eqb_spec k c) as [ -> | ].
    + rewrite app_length, C. cbn. lia.
    + rewrite app_nil_r. apply C.
  - rewrite app_length, D. cbn. lia.
Qed.
Lemma init_tracks : tracks initLearning [].
Proof. split; intros; reflexivity. Qed.
Lemma feed_all_tracks h : forall l g, tracks l g -> tracks (fold_left feed h l) (g ++ h).
Proof.
  induction h as [|p h IH]; intros l g T; cbn [fold_left]; [ rewrite app_nil_r; exact T | ].
  replace (g ++ p :: h) with ((g ++ [p]) ++ h) by (rewrite <- app_assoc; reflexivity). apply IH, feed_tracks, T.
Qed.

Lemma lsum_centered {A} (f g : A -> Q) a b l :
  lsum (map (fun s => (f s - a) * (g s - b)) l) ==
  lsum (map (fun s => f s * g s) l) - b * lsum (map f l) - a * lsum (map g l) + inject_Z (Z.of_nat (length l)) * (a * b).
Proof.
  induction l as [|s l IH]; [ cbn; ring | ]. cbn [map length]. rewrite Nat2Z.inj_succ, <- Z.add_1_r, inject_Z_plus. change (inject_Z 1) with 1.
  cbn [lsum fold_right] in *. unfold lsum in IH. rewrite IH. ring.
Qed.

Section Estimate.
  Context (n : nat) (l : learner) (h : list (nat * vec)) (old : comp) (c : nat).
  Hypothesis dims : (1 <= n <= 3)%nat.
  Hypothesis T : tracks l h.
  Let ss := of_comp c h.

  Definition fitted (g : comp) : Prop :=
    (ss = [] -> coeff g == 0) /\
    (ss <> [] -> coeff g == size ss / inject_Z (Z.of_nat (length h)) /\ (forall i, mean g i == mean_of ss i) /\ kept_cov n ss (cov g) /\
      positive_definite n (cov g) /\ inverse_of n (cov g) (inv g) /\ determ g == laplace n (cov g) /\ 0 < determ g).

  Lemma estimate_ok : exists g, estimate n l old c = Some g /\ fitted g.
  Proof.
    unfold estimate. assert (CN := t_counts _ _ T c). fold ss in CN. destruct (Z.eqb_spec (counts l c) 0) as [E|E].
    - eexists. split; [ reflexivity | ]. split; [ reflexivity | ]. intros H. destruct ss; [ congruence | cbn in CN; lia ].
    - assert (NE : ss <> []) by (intros C; rewrite C in CN; cbn in CN; lia).
      assert (K := length_pos ss NE). set (k := inject_Z (Z.of_nat (length ss))) in *.
      assert (Ek : inject_Z (counts l c) = k) by (unfold k; rewrite CN; reflexivity).
      set (mu := sample_mean l c). set (cv := sample_cov l c).
      assert (MU : forall i, mu i == mean_of ss i).
      { intros i. unfold mu, sample_mean, mean_of, average, size. rewrite (t_sums _ _ T), Ek. reflexivity. }
      assert (CV : forall i j, cv i j == cov_of ss i j).
      { intros i j. unfold cv, sample_cov, cov_of, average, size. fold k mu. rewrite !MU. rewrite (t_prods _ _ T), Ek. fold ss.
        rewrite (lsum_centered (fun s => s i) (fun s => s j)). fold k.
        assert (Mi : lsum (map (fun s : nat -> Q => s i) ss) == k * mean_of ss i) by (unfold mean_of, average, size; fold k; field; lra).
        assert (Mj : lsum (map (fun s : nat -> Q => s j) ss) == k * mean_of ss j) by (unfold mean_of, average, size; fold k; field; lra).
        rewrite Mi, Mj. field. lra. }
      assert (Sy : symmetric cv) by (intros i j; rewrite !CV; apply cov_symmetric).
      assert (Nn : nonnegative n cv) by (intros x; rewrite (form_ext n cv (cov_of ss)) by (intros; apply CV); apply cov_nonnegative, NE).
      assert (DL : det n cv == laplace n (cov_of ss)) by (rewrite (det_ext n cv (cov_of ss)) by exact CV; apply det_laplace, dims).
      unfold regularize. destruct (Qle_bool (1 # 1000000) (Qabs (det n cv))) eqn:Q0; cbn [fst snd].
      + apply Qle_bool_iff in Q0. assert (D : ~ det n cv == 0) by (intros C; rewrite C in Q0; apply Qle_bool_iff in Q0; discriminate).
        destruct (invert_some n cv D) as (x & X). rewrite X. eexists. split; [ reflexivity | ]. split; [ congruence | ]. intros _. cbn [coeff mean cov inv determ].
        assert (PD : positive_definite n cv) by (apply definite; assumption).
        split; [ rewrite (t_tot _ _ T), Ek; reflexivity | ]. split; [ exact MU | ]. split; [ left; split; [ rewrite <- DL; exact Q0 | exact CV ] | ].
        split; [ exact PD | ]. split; [ apply invert_inverse; assumption | ]. split; [ apply det_laplace, dims | apply det_positive; assumption ].
      + set (noisy := add_noise cv).
        assert (PD : positive_definite n noisy) by (apply noise_definite, Nn).
        assert (Sn : symmetric noisy).
        { intros i j. unfold noisy, add_noise. rewrite (Nat.eqb_sym j i). destruct (Nat.eqb_spec i j) as [ -> | ]; [ reflexivity | apply Sy ]. }
        assert (DP := det_positive n noisy dims Sn PD). assert (D : ~ det n noisy == 0) by lra.
        destruct (invert_some n noisy D) as (x & X). rewrite X. eexists. split; [ reflexivity | ]. split; [ congruence | ]. intros _. cbn [coeff mean cov inv determ].
        split; [ rewrite (t_tot _ _ T), Ek; reflexivity | ]. split; [ exact MU | ]. split.
        { right. split.
          - rewrite <- DL. destruct (Qlt_le_dec (Qabs (det n cv)) (1 # 1000000)) as [|C]; [ assumption | apply Qle_bool_iff in C; congruence ].
          - intros i j. unfold noisy, add_noise. destruct (Nat.eqb i j); rewrite CV; lra. }
        split; [ exact PD | ]. split; [ apply invert_inverse; assumption | ]. split; [ apply det_laplace, dims | exact DP ].
  Qed.
End Estimate.

Lemma end_ok n l h old comps : (1 <= n <= 3)%nat -> tracks l h ->
  exists g, endLearning n l old comps = Some g /\ forall c, (c < comps)%nat -> fitted n h c (g c).
Proof.
  intros N T. induction comps as [|c IH]; cbn [endLearning]; [ exists old; split; [ reflexivity | lia ] | ].
  destruct IH as (g & E & F). rewrite E. destruct (estimate_ok n l h (old c) c N T) as (x & X & Fx). rewrite X.
  exists (set_at g c x). split; [ reflexivity | ]. intros k K. unfold set_at. destruct (Nat.eqb_spec k c) as [ -> | ]; [ exact Fx | apply F; lia ].
Qed.

Lemma learned n comps h old : (1 <= n <= 3)%nat ->
  exists g, endLearning n (fold_left feed h initLearning) old comps = Some g /\ forall c, (c < comps)%nat -> fitted n h c (g c).
Proof. intros N. apply end_ok; [ exact N | ]. apply (feed_all_tracks h initLearning [] init_tracks). Qed.

Lemma of_comp_cons c p h : of_comp c (p :: h) = (if Nat.eqb (fst p) c then [snd p] else []) ++ of_comp c h.
Proof. unfold of_comp. cbn. destruct (Nat.eqb (fst p) c); reflexivity. Qed.
Lemma sizes comps h : (forall p, In p h -> (fst p < comps)%nat) -> sum comps (fun c => size (of_comp c h)) == inject_Z (Z.of_nat (length h)).
Proof.
  induction h as [|p h IH]; intros B.
  - apply sum_zero. intros; reflexivity.
  - rewrite (sum_ext comps _ (fun c => (if Nat.eqb c (fst p) then 1 else 0) + size (of_comp c h))).
    + rewrite sum_plus, IH by (intros; apply B; right; assumption). rewrite (sum_one comps (fst p) (fun _ => 1)) by (apply B; left; reflexivity).
      cbn [length]. rewrite Nat2Z.inj_succ, <- Z.add_1_r, inject_Z_plus. change (inject_Z 1) with 1. lra.
    + intros c C. rewrite of_comp_cons. unfold size. rewrite app_length, Nat2Z.inj_add, inject_Z_plus, (Nat.eqb_sym c).
      destruct (Nat.eqb (fst p) c); reflexivity.
Qed.
Lemma filter_length_le {A} (f : A -> bool) l : (length (filter f l) <= length l)%nat.
Proof. induction l as [|x l IH]; cbn; [ lia | ]. destruct (f x); cbn; lia. Qed.
Lemma weights n comps h g : h <> [] -> (forall p, In p h -> (fst p < comps)%nat) -> (forall c, (c < comps)%nat -> fitted n h c (g c)) ->
  sum comps (fun c => coeff (g c)) == 1 /\ forall c, (c < comps)%nat -> 0 <= coeff (g c) <= 1.
Proof.
  intros NE B F. assert (K := length_pos h NE). set (k := inject_Z (Z.of_nat (length h))) in *.
  assert (W : forall c, (c < comps)%nat -> coeff (g c) == size (of_comp c h) / k).
  { intros c C. destruct (F c C) as [F0 F1]. destruct (of_comp c h) eqn:E.
    - rewrite F0 by reflexivity. unfold size. cbn. field. lra.
    - rewrite (proj1 (F1 ltac:(discriminate))). reflexivity. }
  split.
  - rewrite (sum_ext comps _ (fun c => size (of_comp c h) * / k)) by (intros; apply W; assumption). rewrite sum_scal_r, sizes by exact B. fold k. apply Qmult_inv_r. lra.
  - intros c C. rewrite (W c C). unfold size. assert (L : (length (of_comp c h) <= length h)%nat).
    { unfold of_comp. rewrite map_length. apply filter_length_le. }
    split.
    + apply Qle_shift_div_l; [ exact K | ]. rewrite Qmult_0_l. change 0 with (inject_Z 0). rewrite <- Zle_Qle. lia.
    + apply Qle_shift_div_r; [ exact K | ]. unfold k. rewrite Qmult_1_l, <- Zle_Qle. lia.
Qed.

(* ---- the exponent ---- *)
Lemma fold_seq k f : forall s a, fold_left (fun t i => t + f i) (seq s k) a == a + sum k (fun i => f (s + i)%nat).
Proof.
  induction k as [|k IH]; intros s a; cbn [seq fold_left]; [ cbn; lra | ]. rewrite IH, sum_head, Nat.add_0_r.
  rewrite (sum_ext k (fun i => f (S s + i)%nat) (fun i => f (s + S i)%nat)); [ lra | ]. intros i _. rewrite Nat.add_succ_r. reflexivity.
Qed.
Lemma quad_sum n x d : (1 <= n)%nat -> quad n x d == sum n (fun j => d j * sum n (fun i => d i * x i j)).
Proof.
  intros N. unfold quad, total. rewrite fold_seq, Qplus_0_l. apply sum_ext. intros j J. cbn [Nat.add]. rewrite fold_seq. cbn [Nat.add].
  destruct n as [|n]; [ lia | ]. cbn [Nat.sub]. rewrite Nat.sub_0_r. cbn [sum]. ring.
Qed.
Lemma some_nonzero (y : nat -> Q) k : (exists j, (j < k)%nat /\ ~ y j == 0) \/ (forall j, (j < k)%nat -> y j == 0).
Proof.
  induction k as [|k [(j & J & Y)|IH]]; [ right; lia | left; exists j; split; [ lia | exact Y ] | ].
  destruct (Qeq_dec (y k) 0) as [E|E]; [ | left; exists k; split; [ lia | exact E ] ].
  right. intros j J. destruct (Nat.eq_dec j k) as [ -> | ]; [ exact E | apply IH; lia ].
Qed.
Section Quad.
  Context (n : nat) (m x : mat) (d : vec).
  Hypothesis N : (1 <= n)%nat.
  Hypothesis I : inverse_of n m x.
  Let y j := sum n (fun i => d i * x i j).
  Lemma back j : (j < n)%nat -> sum n (fun i => y i * m i j) == d j.
  Proof.
    intros J. unfold y. rewrite (sum_ext n _ (fun i => sum n (fun k => d k * x k i * m i j))) by (intros; rewrite <- sum_scal_r; reflexivity).
    rewrite sum_swap. rewrite <- (sum_one n j d J). apply sum_ext. intros k K.
    rewrite (sum_ext n _ (fun i => d k * (x k i * m i j))) by (intros; ring). rewrite sum_scal.
    destruct (I k j K J) as [_ P]. unfold product in P. rewrite P. destruct (Nat.eqb k j); ring.
  Qed.
  Lemma quad_form : quad n x d == form n m y.
  Proof.
    rewrite quad_sum by exact N. unfold form. rewrite sum_swap. apply sum_ext. intros j J. fold (y j). rewrite <- (back j J), <- sum_scal_r. reflexivity.
  Qed.
  Lemma quad_pos : positive_definite n m -> (exists i, (i < n)%nat /\ ~ d i == 0) -> 0 < quad n x d.
  Proof.
    intros P (i & L & D). rewrite quad_form. apply P.
    assert (Dec : (exists k, (k < n)%nat /\ ~ y k == 0) \/ forall k, (k < n)%nat -> y k == 0).
    { apply some_nonzero. }
    destruct Dec as [|Z]; [ assumption | ]. exfalso. apply D. rewrite <- (back i L). apply sum_zero. intros k K. rewrite (Z k K). ring.
  Qed.
  Lemma quad_zero : (forall i, (i < n)%nat -> d i == 0) -> quad n x d == 0.
  Proof. intros Z. rewrite quad_sum by exact N. apply sum_zero. intros j J. rewrite (Z j J). ring. Qed.
End Quad.

(* ---- on images ---- *)
Lemma add_labelled_fold labels : forall ss l, add_labelled labels ss l = fold_left feed (combine labels ss) l.
Proof. induction labels as [|c labels IH]; intros [|s ss] l; cbn; try reflexivity. apply IH. Qed.
Lemma init_one comps n labels ss old : (1 <= n <= 3)%nat -> length labels = length ss ->
  (initOne comps n labels ss old = None <-> (n < length ss < comps)%nat) /\
  (forall g, initOne comps n labels ss old = Some g -> forall c, (c < comps)%nat ->
    fitted n (if (length ss <=? n)%nat then [] else combine labels ss) c (g c)).
Proof.
  intros N L. unfold initOne. destruct (Nat.ltb_spec n (length ss)) as [A|A].
  - destruct (Nat.leb_spec (length ss) n); [ lia | ]. destruct (Nat.ltb_spec (length ss) comps) as [B|B].
    + split; [ split; [ lia | reflexivity ] | discriminate ].
    + rewrite add_labelled_fold. destruct (learned n comps (combine labels ss) old N) as (g & E & F). rewrite E.
      split; [ split; [ discriminate | lia ] | ]. intros g' G. injection G as <-. exact F.
  - destruct (Nat.leb_spec (length ss) n); [ | lia ]. destruct (learned n comps [] old N) as (g & E & F). cbn [fold_left] in E. rewrite E.
    split; [ split; [ discriminate | lia ] | ]. intros g' G. injection G as <-. exact F.
Qed.

Lemma learn_one fg comps n img labels old : (1 <= n <= 3)%nat ->
  exists g, learnOne fg comps n img labels old = Some g /\ forall c, (c < comps)%nat -> fitted n (labelled fg comps img labels) c (g c).
Proof.
  intros N. unfold learnOne. replace (fold_left (learn_pixel fg comps) (combine img labels) initLearning)
    with (fold_left feed (labelled fg comps img labels) initLearning); [ apply learned, N | ].
  unfold labelled. generalize (combine img labels) initLearning. induction l as [|pa l IH]; intros i; [ reflexivity | ]. cbn [filter fold_left].
  unfold learn_pixel at 2. destruct (in_roi (fst pa) && ((0 <=? snd pa)%Z && (snd pa <? Z.of_nat comps)%Z) && Bool.eqb (foreground (fst pa)) fg); [ cbn [map fold_left] | ]; apply IH.
Qed.
