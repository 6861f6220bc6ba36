From Coq Require Import ZArith QArith Reals Qreals List Lia.
From Verif Require Import Lib.QSum Model.Gmm Model.GmmDensity Spec.Gmm Spec.GmmDensity Proofs.Gmm Proofs.GmmDensity Proofs.GmmImage.
Import ListNotations.
Open Scope Q_scope.

(* what learning leaves of one component, given the labelled samples *)
Definition C73_fitted (n : nat) (h : list (nat * vec)) (c : nat) (g : comp) : Prop :=
  (of_comp c h = [] -> coeff g == 0) /\
  (of_comp c h <> [] ->
    coeff g == size (of_comp c h) / inject_Z (Z.of_nat (length h)) /\ (forall i, mean g i == mean_of (of_comp c h) i) /\ kept_cov n (of_comp c h) (cov g) /\
    positive_definite n (cov g) /\ inverse_of n (cov g) (inv g) /\ determ g == laplace n (cov g) /\ 0 < determ g).

(* learning always succeeds: whatever the samples, the covariances that are kept are those of the samples, up to the added variance, and invertible *)
Theorem C73_learned : forall n comps h old, (1 <= n <= 3)%nat ->
  exists g, endLearning n (fold_left (fun l p => addSample (fst p) (snd p) l) h initLearning) old comps = Some g /\
    (forall c, (c < comps)%nat -> C73_fitted n h c (g c)) /\
    (forall c, (c < comps)%nat -> of_comp c h = [] ->
      mean (g c) = mean (old c) /\ cov (g c) = cov (old c) /\ inv (g c) = inv (old c) /\ determ (g c) = determ (old c)).
Proof.
  intros n comps h old N. destruct (learned n comps h old N) as (g & E & F). exists g. split; [ exact E | ]. split; [ exact F | ]. exact (kept n comps h old g E).
Qed.
Print Assumptions C73_learned.

(* the weights form a distribution *)
Theorem C73_weights : forall n comps h g, h <> [] -> (forall p, In p h -> (fst p < comps)%nat) -> (forall c, (c < comps)%nat -> C73_fitted n h c (g c)) ->
  sum comps (fun c => coeff (g c)) == 1 /\ forall c, (c < comps)%nat -> 0 <= coeff (g c) <= 1.
Proof. exact weights. Qed.
Print Assumptions C73_weights.

(* the density of a component is that of a normal distribution; it is positive if the component has samples, and largest exactly at their mean *)
Theorem C73_density : forall n h c g s, (1 <= n <= 3)%nat -> C73_fitted n h c g ->
  (of_comp c h = [] -> density n g s = 0%R) /\
  (of_comp c h <> [] -> (0 < density n g s <= factor n g)%R /\
    density n g s = gaussian n (mean_of (of_comp c h)) (cov g) (inv g) s /\
    (density n g s = factor n g <-> forall i, (i < n)%nat -> s i == mean_of (of_comp c h) i)).
Proof.
  intros n h c g s N F. split; [ apply density_none, F | ]. intros H. destruct (density_pos n h c g N F s H) as (A & B & C). split; [ split; assumption | ].
  split; [ apply density_gaussian; assumption | exact C ].
Qed.
Print Assumptions C73_density.

(* the mixture is the weighted sum, positive as soon as there was one sample *)
Theorem C73_mixture : forall comps n h g s, (0 < comps)%nat -> (1 <= n <= 3)%nat -> (forall p, In p h -> (fst p < comps)%nat) ->
  (forall c, (c < comps)%nat -> C73_fitted n h c (g c)) ->
  mixture comps n g s = rsum comps (fun c => (Q2R (coeff (g c)) * density n (g c) s)%R) /\
  (0 <= mixture comps n g s)%R /\ ((0 < mixture comps n g s)%R <-> h <> []).
Proof.
  intros comps n h g s C N B F. split; [ apply mixture_sum, C | ]. destruct (mixture_pos comps n h g s C N B F). split; assumption.
Qed.
Print Assumptions C73_mixture.

(* the best component has the largest density; ties go to the last component, otherwise to the first *)
Theorem C73_best : forall comps n g s, (0 < comps)%nat ->
  let b := getBestComponent comps n g s in
  (b < comps)%nat /\ (forall c, (c < comps)%nat -> (density n (g c) s <= density n (g b) s)%R) /\
  (b <> (comps - 1)%nat -> (density n (g (comps - 1)%nat) s < density n (g b) s)%R /\ forall c, (c < b)%nat -> (density n (g c) s < density n (g b) s)%R).
Proof. exact best_component. Qed.
Print Assumptions C73_best.

(* it is not the component the sample most likely belongs to: weights are ignored *)
Theorem C73_likeliest_refuted : exists h g s, endLearning 1 (fold_left (fun l p => addSample (fst p) (snd p) l) h initLearning) emptyGmm 2 = Some g /\
  getBestComponent 2 1 g s = 0%nat /\
  (Q2R (coeff (g 0%nat)) * density 1 (g 0%nat) s < Q2R (coeff (g 1%nat)) * density 1 (g 1%nat) s)%R.
Proof. exists wh, wg, (fun _ => 10). split; [ exact wg_ok | ]. split; [ exact w_best | exact w_weighted ]. Qed.
Print Assumptions C73_likeliest_refuted.

(* initialisation fails exactly if there are more samples than dimensions but fewer than components, on one side or the other *)
Theorem C73_init : forall cb cf n lb lf img bg fg, (1 <= n <= 3)%nat -> length lb = length (samples_of false img) -> length lf = length (samples_of true img) ->
  (initGaussianMixtureParams cb cf n lb lf img bg fg = None <->
    (n < length (samples_of false img) < cb)%nat \/ (n < length (samples_of true img) < cf)%nat) /\
  (forall b f, initGaussianMixtureParams cb cf n lb lf img bg fg = Some (b, f) ->
    (forall c, (c < cb)%nat -> C73_fitted n (if (length (samples_of false img) <=? n)%nat then [] else combine lb (samples_of false img)) c (b c)) /\
    (forall c, (c < cf)%nat -> C73_fitted n (if (length (samples_of true img) <=? n)%nat then [] else combine lf (samples_of true img)) c (f c))).
Proof. exact init_image. Qed.
Print Assumptions C73_init.

(* so it does not accept every mask: four background pixels are too few for five components *)
Theorem C73_any_mask_refuted : exists img, forall lb lf bg fg, initGaussianMixtureParams 5 5 3 lb lf img bg fg = None.
Proof. exists (repeat (Pixel true false (fun _ => 7)) 4). intros. reflexivity. Qed.
Print Assumptions C73_any_mask_refuted.

(* assignment: pixels of the region get the best component of their side, the others keep what the map held *)
Theorem C73_assign : forall cb cf n bg fg img created k p z, (0 < cb)%nat -> (0 < cf)%nat ->
  nth_error img k = Some p -> nth_error created k = Some z ->
  exists v, nth_error (assignGaussianMixtureComponents (getBestComponent cb n bg) (getBestComponent cf n fg) img created) k = Some v /\
    (in_roi p = true -> v = Z.of_nat (if foreground p then getBestComponent cf n fg (channels p) else getBestComponent cb n bg (channels p)) /\
      (0 <= v < Z.of_nat (if foreground p then cf else cb))%Z) /\
    (in_roi p = false -> v = z).
Proof.
  intros cb cf n bg fg img created k p z B F P Z. eexists. split; [ apply assign_nth; eassumption | ]. destruct (in_roi p); split; intros H; try discriminate; [ | reflexivity ].
  destruct (foreground p); (split; [ reflexivity | ]).
  - destruct (best_component cf n fg (channels p) F). lia.
  - destruct (best_component cb n bg (channels p) B). lia.
Qed.
Print Assumptions C73_assign.
Theorem C73_all_assigned_refuted : exists img created, length created = length img /\
  forall bb bf, exists v, nth_error (assignGaussianMixtureComponents bb bf img created) 0 = Some v /\ (v < 0)%Z.
Proof. exists [Pixel false true (fun _ => 0)], [(-1)%Z]. split; [ reflexivity | ]. intros. exists (-1)%Z. split; reflexivity. Qed.
Print Assumptions C73_all_assigned_refuted.

(* learning from a map fits each side to its own pixels in the region whose label exists *)
Theorem C73_relearn : forall cb cf n img labels bg fg, (1 <= n <= 3)%nat ->
  exists b f, learnGaussianMixtureParams cb cf n img labels bg fg = Some (b, f) /\
    (forall c, (c < cb)%nat -> C73_fitted n (labelled false cb img labels) c (b c)) /\
    (forall c, (c < cf)%nat -> C73_fitted n (labelled true cf img labels) c (f c)).
Proof. exact learn_image. Qed.
Print Assumptions C73_relearn.

(* after an assignment these are all the pixels of the region *)
Theorem C73_round : forall cb cf n bg fg img created, (0 < cb)%nat -> (0 < cf)%nat -> length created = length img ->
  let labels := assignGaussianMixtureComponents (getBestComponent cb n bg) (getBestComponent cf n fg) img created in
  labelled false cb img labels = map (fun s => (getBestComponent cb n bg s, s)) (samples_of false img) /\
  labelled true cf img labels = map (fun s => (getBestComponent cf n fg s, s)) (samples_of true img).
Proof.
  intros cb cf n bg fg img created B F L. split.
  - apply (assigned_all false); [ exact L | ]. intros s. apply (best_component cb n bg s B).
  - apply (assigned_all true); [ exact L | ]. intros s. apply (best_component cf n fg s F).
Qed.
Print Assumptions C73_round.

(* two components in two dimensions, one of a single sample *)
Example C73_ex :
  exists g, endLearning 2 (fold_left (fun l p => addSample (fst p) (snd p) l)
      [(0%nat, fun i => if Nat.eqb i 0 then 1 else 2); (1%nat, fun _ => 5); (0%nat, fun i => if Nat.eqb i 0 then 3 else 2); (0%nat, fun i => if Nat.eqb i 0 then 2 else 5)]
      initLearning) emptyGmm 2 = Some g /\
    Qred (coeff (g 0%nat)) = 3 # 4 /\ Qred (mean (g 0%nat) 0%nat) = 2 /\ Qred (mean (g 0%nat) 1%nat) = 3 /\
    Qred (cov (g 0%nat) 0%nat 0%nat) = 2 # 3 /\ Qred (cov (g 0%nat) 1%nat 1%nat) = 2 /\ Qred (cov (g 0%nat) 0%nat 1%nat) = 0 /\ Qred (determ (g 0%nat)) = 4 # 3 /\
    Qred (coeff (g 1%nat)) = 1 # 4 /\ Qred (cov (g 1%nat) 0%nat 0%nat) = 1 # 100 /\ Qred (determ (g 1%nat)) = 1 # 10000.
Proof. eexists. split; [ reflexivity | ]. vm_compute. repeat split; reflexivity. Qed.
Example C73_ex_labels : map fst (labelled true 2 [Pixel true true (fun _ => 1); Pixel true true (fun _ => 2); Pixel false true (fun _ => 3); Pixel true false (fun _ => 4); Pixel true true (fun _ => 5)]
  [1; 2; 0; 1; -1]%Z) = [1%nat].
Proof. reflexivity. Qed.
