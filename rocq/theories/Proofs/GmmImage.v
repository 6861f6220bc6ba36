(* Gaussian mixtures on images, and counterexamples. *)
From Coq Require Import ZArith QArith Qabs Reals Qreals List Lia Lra Lqa.
From Verif Require Import Lib.QSum Model.Gmm Model.GmmDensity Spec.Gmm Spec.GmmDensity Proofs.Gmm Proofs.GmmDensity.
Import ListNotations.
Open Scope Q_scope.

Lemma end_kept n l old comps : forall g, endLearning n l old comps = Some g -> forall c, (c < comps)%nat -> counts l c = 0%Z ->
  mean (g c) = mean (old c) /\ cov (g c) = cov (old c) /\ inv (g c) = inv (old c) /\ determ (g c) = determ (old c).
Proof.
  induction comps as [|k IH]; intros g E c C Z; [ lia | ]. cbn [endLearning] in E. destruct (endLearning n l old k) as [g'|] eqn:E'; [ | discriminate ].
  destruct (estimate n l (old k) k) as [x|] eqn:X; [ | discriminate ]. injection E as <-. unfold set_at. destruct (Nat.eqb_spec c k) as [ -> | ].
  - unfold estimate in X. rewrite Z in X. cbn in X. injection X as <-. cbn. repeat split; reflexivity.
  - apply (IH g' eq_refl c ltac:(lia) Z).
Qed.
Lemma kept n comps h old g : endLearning n (fold_left feed h initLearning) old comps = Some g -> forall c, (c < comps)%nat -> of_comp c h = [] ->
  mean (g c) = mean (old c) /\ cov (g c) = cov (old c) /\ inv (g c) = inv (old c) /\ determ (g c) = determ (old c).
Proof.
  intros E c C H. apply (end_kept _ _ _ _ _ E c C). rewrite (t_counts _ _ (feed_all_tracks h initLearning [] init_tracks)). cbn [app]. rewrite H. reflexivity.
Qed.

Lemma init_image cb cf n lb lf img bg fg : (1 <= n <= 3)%nat -> length lb = length (samples_of false img) -> length lf = length (samples_of true img) ->
  (initGaussianMixtureParams cb cf n lb lf img bg fg = None <->
    (n < length (samples_of false img) < cb)%nat \/ (n < length (samples_of true img) < cf)%nat) /\
  (forall b f, initGaussianMixtureParams cb cf n lb lf img bg fg = Some (b, f) ->
    (forall c, (c < cb)%nat -> fitted n (if (length (samples_of false img) <=? n)%nat then [] else combine lb (samples_of false img)) c (b c)) /\
    (forall c, (c < cf)%nat -> fitted n (if (length (samples_of true img) <=? n)%nat then [] else combine lf (samples_of true img)) c (f c))).
Proof.
  intros N Lb Lf. unfold initGaussianMixtureParams. destruct (init_one cb n lb (samples_of false img) bg N Lb) as [B0 B1].
  destruct (init_one cf n lf (samples_of true img) fg N Lf) as [F0 F1].
  destruct (initOne cb n lb (samples_of false img) bg) as [b|].
  - destruct (initOne cf n lf (samples_of true img) fg) as [f|].
    + split; [ | intros b' f' E; injection E as <- <-; split; [ apply B1; reflexivity | apply F1; reflexivity ] ].
      split; [ discriminate | ]. intros [H|H]; [ apply B0 in H | apply F0 in H ]; discriminate.
    + split; [ | discriminate ]. split; [ | reflexivity ]. intros _. right. apply F0. reflexivity.
  - split; [ | discriminate ]. split; [ | reflexivity ]. intros _. left. apply B0. reflexivity.
Qed.

Lemma learn_image cb cf n img labels bg fg : (1 <= n <= 3)%nat ->
  exists b f, learnGaussianMixtureParams cb cf n img labels bg fg = Some (b, f) /\
    (forall c, (c < cb)%nat -> fitted n (labelled false cb img labels) c (b c)) /\
    (forall c, (c < cf)%nat -> fitted n (labelled true cf img labels) c (f c)).
Proof.
  intros N. unfold learnGaussianMixtureParams. destruct (learn_one false cb n img labels bg N) as (b & E & B).
  destruct (learn_one true cf n img labels fg N) as (f & E' & F). rewrite E, E'. exists b, f. split; [ reflexivity | split; assumption ].
Qed.

Lemma assign_nth bb bf : forall img created k p z, nth_error img k = Some p -> nth_error created k = Some z ->
  nth_error (assignGaussianMixtureComponents bb bf img created) k =
    Some (if in_roi p then Z.of_nat ((if foreground p then bf else bb) (channels p)) else z).
Proof.
  induction img as [|q img IH]; intros [|y created] [|k] p z P Z; cbn in *; try discriminate.
  - injection P as ->. injection Z as ->. destruct (in_roi p), (foreground p); reflexivity.
  - apply IH; assumption.
Qed.
Lemma assign_length bb bf img created : length created = length img -> length (assignGaussianMixtureComponents bb bf img created) = length img.
Proof. intros L. unfold assignGaussianMixtureComponents. rewrite map_length, combine_length, L. apply Nat.min_id. Qed.

(* after an assignment, every pixel of the region is learned from *)
Lemma assigned_all (fg : bool) comps (bb bf : vec -> nat) : forall img created, length created = length img ->
  (forall s, ((if fg then bf s else bb s) < comps)%nat) ->
  labelled fg comps img (assignGaussianMixtureComponents bb bf img created) =
    map (fun s => ((if fg then bf s else bb s), s)) (samples_of fg img).
Proof.
  induction img as [|p img IH]; intros [|z created] L B; try discriminate; [ reflexivity | ].
  injection L as L. unfold labelled, samples_of, assignGaussianMixtureComponents in *. cbn [combine map filter fst snd].
  destruct (in_roi p) eqn:R; cbn [andb].
  - destruct (Bool.eqb_spec (foreground p) fg) as [E|E].
    + rewrite E. replace ((0 <=? Z.of_nat (if fg then bf (channels p) else bb (channels p)))%Z &&
        (Z.of_nat (if fg then bf (channels p) else bb (channels p)) <? Z.of_nat comps)%Z)%bool with true.
      * cbn [andb map fst snd]. rewrite Nat2Z.id. f_equal. apply IH; assumption.
      * specialize (B (channels p)). symmetry. rewrite Bool.andb_true_iff, Z.leb_le, Z.ltb_lt. lia.
    + rewrite Bool.andb_false_r. apply IH; assumption.
  - apply IH; assumption.
Qed.

(* ---- a component that is chosen although another is likelier ---- *)
Definition wh : list (nat * vec) := (0%nat, fun _ => 10) :: repeat (1%nat, fun _ => 10) 9 ++ [(1%nat, fun _ => 11)].
Definition wg : gmm := match endLearning 1 (fold_left feed wh initLearning) emptyGmm 2 with Some g => g | None => emptyGmm end.
Lemma wg_ok : endLearning 1 (fold_left feed wh initLearning) emptyGmm 2 = Some wg.
Proof. destruct (learned 1 2 wh emptyGmm ltac:(lia)) as (g & E & _). unfold wg. rewrite E. reflexivity. Qed.
Lemma w_coeff0 : coeff (wg 0%nat) == 1 # 11. Proof. vm_compute. reflexivity. Qed.
Lemma w_coeff1 : coeff (wg 1%nat) == 10 # 11. Proof. vm_compute. reflexivity. Qed.
Lemma w_det0 : determ (wg 0%nat) == 1 # 100. Proof. vm_compute. reflexivity. Qed.
Lemma w_det1 : determ (wg 1%nat) == 9 # 100. Proof. vm_compute. reflexivity. Qed.
Lemma w_quad0 : quad 1 (inv (wg 0%nat)) (fun i => 10 - mean (wg 0%nat) i) == 0. Proof. vm_compute. reflexivity. Qed.
Lemma w_quad1 : quad 1 (inv (wg 1%nat)) (fun i => 10 - mean (wg 1%nat) i) == 1 # 9. Proof. vm_compute. reflexivity. Qed.
Open Scope R_scope.
Lemma w_value a b : Q2R (a # b) = IZR a / IZR (Zpos b). Proof. reflexivity. Qed.
Lemma w_density0 : density 1 (wg 0%nat) (fun _ => 10%Q) = factor 1 (wg 0%nat).
Proof.
  unfold density. destruct (Qlt_le_dec 0 (coeff (wg 0%nat))) as [_|H]; [ | rewrite w_coeff0 in H; Lqa.lra ].
  rewrite (Qeq_eqR _ _ w_quad0), Q2R_zero, Rmult_0_r, exp_0. Lra.lra.
Qed.
Lemma w_density1 : density 1 (wg 1%nat) (fun _ => 10%Q) = factor 1 (wg 1%nat) * exp (- (1 / 18)).
Proof.
  unfold density. destruct (Qlt_le_dec 0 (coeff (wg 1%nat))) as [_|H]; [ | rewrite w_coeff1 in H; Lqa.lra ].
  rewrite (Qeq_eqR _ _ w_quad1), w_value. do 2 f_equal. Lra.lra.
Qed.
Lemma w_factor : factor 1 (wg 1%nat) = factor 1 (wg 0%nat) / 3.
Proof.
  unfold factor. rewrite (Qeq_eqR _ _ w_det0), (Qeq_eqR _ _ w_det1), !w_value. assert (P := sigma_pos 1).
  replace (sigmaFactor 1 * (9 / 100)) with ((3 * 3) * (sigmaFactor 1 * (1 / 100))) by Lra.lra.
  rewrite sqrt_mult_alt by Lra.lra. rewrite sqrt_square by Lra.lra. assert (0 < sqrt (sigmaFactor 1 * (1 / 100))) by (apply sqrt_lt_R0; Lra.lra). field. Lra.lra.
Qed.
Lemma w_factor_pos : 0 < factor 1 (wg 0%nat).
Proof. apply factor_pos. rewrite w_det0. reflexivity. Qed.
Lemma w_exp : 17 / 18 <= exp (- (1 / 18)) < 1.
Proof.
  split; [ assert (H := exp_ineq1_le (- (1 / 18))); Lra.lra | ]. apply Rlt_le_trans with (exp 0); [ apply exp_increasing; Lra.lra | rewrite exp_0; Lra.lra ].
Qed.
Lemma w_best : getBestComponent 2 1 wg (fun _ => 10%Q) = 0%nat.
Proof.
  assert (P := w_factor_pos). assert (E := w_exp). unfold getBestComponent. cbn [Nat.sub seq fold_left snd]. rewrite w_density0, w_density1, w_factor.
  destruct (Rlt_dec _ _) as [_|H]; [ reflexivity | ]. exfalso. apply H. Lra.nra.
Qed.
Lemma w_weighted : Q2R (coeff (wg 0%nat)) * density 1 (wg 0%nat) (fun _ => 10%Q) < Q2R (coeff (wg 1%nat)) * density 1 (wg 1%nat) (fun _ => 10%Q).
Proof.
  rewrite (Qeq_eqR _ _ w_coeff0), (Qeq_eqR _ _ w_coeff1), !w_value, w_density0, w_density1, w_factor. assert (P := w_factor_pos). assert (E := w_exp). Lra.nra.
Qed.
