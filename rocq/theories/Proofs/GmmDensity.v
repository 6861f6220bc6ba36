(* Densities of estimated Gaussian mixtures. *)
From Coq Require Import ZArith QArith Qabs Reals Qreals List Lia Lra Lqa.
From Verif Require Import Lib.QSum Model.Gmm Model.GmmDensity Spec.Gmm Spec.GmmDensity Proofs.Gmm.
Import ListNotations.
Open Scope R_scope.

Lemma Q2R_pos q : (0 < q)%Q -> 0 < Q2R q.
Proof. intros H. apply Qlt_Rlt in H. replace (Q2R 0) with 0 in H; [ exact H | ]. unfold Q2R. cbn. Lra.lra. Qed.
Lemma Q2R_zero : Q2R 0 = 0.
Proof. unfold Q2R. cbn. Lra.lra. Qed.
Lemma sigma_pos n : 0 < sigmaFactor n.
Proof. apply pow_lt. assert (P := PI_RGT_0). Lra.lra. Qed.
Lemma factor_pos n c : (0 < determ c)%Q -> 0 < factor n c.
Proof.
  intros D. unfold factor. apply Rdiv_lt_0_compat; [ Lra.lra | ]. apply sqrt_lt_R0, Rmult_lt_0_compat; [ apply sigma_pos | apply Q2R_pos, D ].
Qed.

Section Fitted.
  Context (n : nat) (h : list (nat * vec)) (c : nat) (g : comp).
  Hypothesis dims : (1 <= n <= 3)%nat.
  Hypothesis F : fitted n h c g.

  Lemma coeff_pos : of_comp c h <> [] <-> (0 < coeff g)%Q.
  Proof.
    destruct F as [F0 F1]. split.
    - intros H. rewrite (proj1 (F1 H)). assert (L := filter_length_le (fun p => Nat.eqb (fst p) c) h).
      assert (A : (0 < size (of_comp c h))%Q) by (apply length_pos, H).
      assert (B : (0 < inject_Z (Z.of_nat (length h)))%Q).
      { apply length_pos. intros C. rewrite C in H. apply H. reflexivity. }
      unfold Qdiv. apply Qmult_lt_0_compat; [ exact A | apply Qinv_lt_0_compat, B ].
    - intros H C. rewrite (F0 C) in H. Lqa.lra.
  Qed.
  Lemma density_none s : of_comp c h = [] -> density n g s = 0.
  Proof.
    intros C. unfold density. destruct (Qlt_le_dec 0 (coeff g)) as [H|]; [ | reflexivity ]. apply coeff_pos in H. contradiction.
  Qed.
  Lemma density_pos s : of_comp c h <> [] -> 0 < density n g s /\ density n g s <= factor n g /\
    (density n g s = factor n g <-> forall i, (i < n)%nat -> (s i == mean_of (of_comp c h) i)%Q).
  Proof.
    intros H. unfold density. destruct (Qlt_le_dec 0 (coeff g)) as [_|C]; [ | apply coeff_pos in H; Lqa.lra ].
    destruct (proj2 F H) as (_ & M & _ & PD & I & _ & D). assert (FP := factor_pos n g D).
    set (d := fun i => (s i - mean g i)%Q). set (q := quad n (inv g) d).
    assert (Dec : (exists i, (i < n)%nat /\ ~ (d i == 0)%Q) \/ forall i, (i < n)%nat -> (d i == 0)%Q).
    { apply some_nonzero. }
    assert (Z : forall i, (d i == 0)%Q <-> (s i == mean_of (of_comp c h) i)%Q).
    { intros i. unfold d. rewrite (M i). split; intros; Lqa.lra. }
    destruct Dec as [E|E].
    - assert (QP : (0 < q)%Q) by (apply (quad_pos n (cov g)); auto; lia). apply Q2R_pos in QP.
      assert (X : exp (- (1 / 2) * Q2R q) < 1) by (apply Rlt_le_trans with (exp 0); [ apply exp_increasing; Lra.lra | rewrite exp_0; Lra.lra ]).
      assert (XP := exp_pos (- (1 / 2) * Q2R q)).
      split; [ apply Rmult_lt_0_compat; assumption | ].
      assert (LT : factor n g * exp (- (1 / 2) * Q2R q) < factor n g) by (rewrite <- (Rmult_1_r (factor n g)) at 2; apply Rmult_lt_compat_l; assumption).
      split; [ Lra.lra | ]. split; [ intros; Lra.lra | ]. intros A. destruct E as (i & L & E). exfalso. apply E, Z, A, L.
    - assert (QZ : (q == 0)%Q) by (apply quad_zero; auto; lia). rewrite (Qeq_eqR _ _ QZ), Q2R_zero, Rmult_0_r, exp_0, Rmult_1_r.
      split; [ exact FP | ]. split; [ Lra.lra | ]. split; [ | reflexivity ]. intros _ i L. apply Z, E, L.
  Qed.
  Lemma density_gaussian s : of_comp c h <> [] -> density n g s = gaussian n (mean_of (of_comp c h)) (cov g) (inv g) s.
  Proof.
    intros H. unfold density. destruct (Qlt_le_dec 0 (coeff g)) as [_|C]; [ | apply coeff_pos in H; Lqa.lra ].
    destruct (proj2 F H) as (_ & M & _ & _ & _ & L & D). unfold gaussian, factor, sigmaFactor. rewrite (Qeq_eqR _ _ L).
    rewrite (Qeq_eqR (quad n (inv g) (fun i => (s i - mean g i)%Q)) (form n (inv g) (fun i => (s i - mean_of (of_comp c h) i)%Q))).
    - match goal with |- _ * exp ?a = exp ?b / _ => replace a with b by Lra.lra end. unfold Rdiv. rewrite Rmult_1_l. apply Rmult_comm.
    - rewrite quad_sum by lia. unfold form. rewrite sum_swap. apply sum_ext. intros j J. rewrite <- sum_scal. apply sum_ext. intros i I. rewrite !M. ring.
  Qed.
End Fitted.

(* the mixture *)
Lemma rsum_head k f : rsum (S k) f = f 0%nat + rsum k (fun i => f (S i)).
Proof. induction k as [|k IH]; [ cbn; Lra.lra | ]. change (rsum (S (S k)) f) with (rsum (S k) f + f (S k)). rewrite IH. cbn [rsum]. Lra.lra. Qed.
Lemma fold_rsum k f : forall s a, fold_left (fun t i => t + f i) (seq s k) a = a + rsum k (fun i => f (s + i)%nat).
Proof.
  induction k as [|k IH]; intros s a; cbn [seq fold_left]; [ cbn; Lra.lra | ]. rewrite IH, rsum_head, Nat.add_0_r.
  replace (rsum k (fun i => f (s + S i)%nat)) with (rsum k (fun i => f (S s + i)%nat)); [ Lra.lra | ].
  clear. induction k as [|k IH]; [ reflexivity | ]. cbn [rsum]. rewrite IH, Nat.add_succ_r. reflexivity.
Qed.
Lemma mixture_sum comps n g s : (0 < comps)%nat -> mixture comps n g s = rsum comps (fun c => Q2R (coeff (g c)) * density n (g c) s).
Proof.
  intros C. unfold mixture. rewrite (fold_rsum (comps - 1) (fun c => Q2R (coeff (g c)) * density n (g c) s)). cbn [Nat.add].
  destruct comps as [|k]; [ lia | ]. cbn [Nat.sub]. rewrite Nat.sub_0_r. cbn [rsum]. Lra.lra.
Qed.
Lemma rsum_nonneg k f : (forall c, (c < k)%nat -> 0 <= f c) -> 0 <= rsum k f.
Proof. induction k as [|k IH]; intros H; cbn [rsum]; [ Lra.lra | ]. assert (A := IH (fun c C => H c ltac:(lia))). assert (B := H k ltac:(lia)). Lra.lra. Qed.
Lemma rsum_pos k f : (forall c, (c < k)%nat -> 0 <= f c) -> (exists c, (c < k)%nat /\ 0 < f c) -> 0 < rsum k f.
Proof.
  induction k as [|k IH]; intros H (c & C & P); [ lia | ]. cbn [rsum]. assert (A := rsum_nonneg k f (fun c C => H c ltac:(lia))). assert (B := H k ltac:(lia)).
  destruct (Nat.eq_dec c k) as [ -> | ]; [ Lra.lra | ]. assert (0 < rsum k f) by (apply IH; [ intros; apply H; lia | exists c; split; [ lia | exact P ] ]). Lra.lra.
Qed.
Lemma mixture_pos comps n h g s : (0 < comps)%nat -> (1 <= n <= 3)%nat -> (forall p, In p h -> (fst p < comps)%nat) ->
  (forall c, (c < comps)%nat -> fitted n h c (g c)) -> (0 < mixture comps n g s <-> h <> []) /\ 0 <= mixture comps n g s.
Proof.
  intros C N B F. rewrite mixture_sum by exact C.
  assert (P : forall c, (c < comps)%nat -> of_comp c h <> [] -> 0 < Q2R (coeff (g c)) * density n (g c) s).
  { intros c L H. apply Rmult_lt_0_compat; [ apply Q2R_pos; apply (coeff_pos n h c (g c) (F c L)); exact H | apply (density_pos n h c (g c) N (F c L) s H) ]. }
  assert (Z : forall c, (c < comps)%nat -> of_comp c h = [] -> Q2R (coeff (g c)) * density n (g c) s = 0).
  { intros c L H. rewrite (density_none n h c (g c) (F c L) s H). Lra.lra. }
  assert (NN : forall c, (c < comps)%nat -> 0 <= Q2R (coeff (g c)) * density n (g c) s).
  { intros c L. destruct (of_comp c h) eqn:E; [ rewrite (Z c L E); Lra.lra | apply Rlt_le, P; [ exact L | rewrite E; discriminate ] ]. }
  split; [ | apply rsum_nonneg, NN ]. split.
  - intros H E. subst h. assert (Z0 : rsum comps (fun c => Q2R (coeff (g c)) * density n (g c) s) = 0); [ | Lra.lra ].
    clear - Z. induction comps as [|k IH]; [ reflexivity | ]. cbn [rsum]. rewrite IH by (intros; apply Z; [ lia | assumption ]). rewrite Z by (lia || reflexivity). Lra.lra.
  - intros H. apply rsum_pos; [ exact NN | ]. destruct h as [|p h]; [ congruence | ]. exists (fst p).
    assert (L := B p (or_introl eq_refl)). split; [ exact L | ]. apply P; [ exact L | ]. rewrite of_comp_cons, Nat.eqb_refl. discriminate.
Qed.

(* the best component *)
Lemma best_fold f k : forall b v s, v = f b -> (forall c, (c < s)%nat -> f c <= v) ->
  let r := fold_left (fun best c => if Rlt_dec (snd best) (f c) then (c, f c) else best) (seq s k) (b, v) in
  snd r = f (fst r) /\ v <= snd r /\ (forall c, (c < s + k)%nat -> f c <= snd r) /\ (fst r = b \/ (s <= fst r < s + k)%nat) /\
  (snd r = v -> fst r = b) /\ (v < snd r -> forall c, (s <= c < fst r)%nat -> f c < snd r).
Proof.
  induction k as [|k IH]; intros b v s V M; cbn [seq fold_left].
  - cbn. rewrite Nat.add_0_r. split; [ exact V | ]. split; [ Lra.lra | ]. split; [ exact M | ]. split; [ left; reflexivity | ]. split; [ reflexivity | intros; Lra.lra ].
  - cbn [snd]. destruct (Rlt_dec v (f s)) as [L|L].
    + destruct (IH s (f s) (S s) eq_refl) as (A & B & C & D & E & G).
      { intros c H. destruct (Nat.eq_dec c s) as [ -> | ]; [ Lra.lra | ]. assert (X := M c ltac:(lia)). Lra.lra. }
      set (r := fold_left _ (seq (S s) k) (s, f s)) in *. cbv zeta in *. cbn zeta.
      split; [ exact A | ]. split; [ Lra.lra | ]. split; [ intros c H; apply C; lia | ]. split; [ right; lia | ]. split; [ intros; Lra.lra | ].
      intros _ c H. destruct (Rle_lt_or_eq_dec _ _ B) as [B1|B1].
      * destruct (Nat.eq_dec c s) as [ -> | ]; [ exact B1 | apply G; [ exact B1 | lia ] ].
      * rewrite (E (eq_sym B1)) in H. lia.
    + destruct (IH b v (S s) V) as (A & B & C & D & E & G).
      { intros c H. destruct (Nat.eq_dec c s) as [ -> | ]; [ Lra.lra | apply M; lia ]. }
      set (r := fold_left _ (seq (S s) k) (b, v)) in *. cbv zeta in *.
      split; [ exact A | ]. split; [ exact B | ]. split; [ intros c H; apply C; lia | ]. split; [ lia | ]. split; [ exact E | ].
      intros H c K. destruct (Nat.eq_dec c s) as [ -> | ]; [ Lra.lra | apply G; [ exact H | lia ] ].
Qed.
Lemma best_component comps n g s : (0 < comps)%nat ->
  let b := getBestComponent comps n g s in
  (b < comps)%nat /\ (forall c, (c < comps)%nat -> density n (g c) s <= density n (g b) s) /\
  (b <> (comps - 1)%nat -> density n (g (comps - 1)%nat) s < density n (g b) s /\ forall c, (c < b)%nat -> density n (g c) s < density n (g b) s).
Proof.
  intros C. unfold getBestComponent. set (f := fun c => density n (g c) s).
  destruct (best_fold f (comps - 1) (comps - 1)%nat (f (comps - 1)%nat) 0%nat eq_refl) as (A & B & M & D & E & G); [ lia | ].
  change (fold_left (fun best c => if Rlt_dec (snd best) (density n (g c) s) then (c, density n (g c) s) else best) (seq 0 (comps - 1))
    ((comps - 1)%nat, density n (g (comps - 1)%nat) s)) with (fold_left (fun best c => if Rlt_dec (snd best) (f c) then (c, f c) else best) (seq 0 (comps - 1)) ((comps - 1)%nat, f (comps - 1)%nat)).
  set (r := fold_left _ _ _) in *. cbv zeta in *. change (density n (g (fst r)) s) with (f (fst r)). change (density n (g (comps - 1)%nat) s) with (f (comps - 1)%nat).
  rewrite <- A. split; [ lia | ]. split.
  - intros c H. change (f c <= snd r). destruct (Nat.eq_dec c (comps - 1)) as [ -> | ]; [ exact B | apply M; lia ].
  - intros H. destruct (Rle_lt_or_eq_dec _ _ B) as [B1|B1]; [ | exfalso; apply H, E; symmetry; exact B1 ].
    split; [ exact B1 | ]. intros c K. change (f c < snd r). apply G; [ exact B1 | lia ].
Qed.
