From Coq Require Import ZArith Reals List Permutation Lra Lia.
From Verif Require Import Model.RootSift Spec.RootSift Proofs.RootSift.
Import ListNotations.
Open Scope R_scope.

(* entries become signed roots of their shares *)
Theorem C74_root : forall neg v, neg = true \/ (forall x, In x v -> 0 <= x) -> exists w, rootSIFT false neg v = Some w /\
  Forall2 (fun x y => y * y = Rabs x / (magnitude v + eps) /\ same_sign x y) v w /\ energy w = magnitude v / (magnitude v + eps).
Proof. exact root_claim. Qed.
Print Assumptions C74_root.

(* the last step divides by the length, which ends just below one *)
Theorem C74_normalized : forall neg v, neg = true \/ (forall x, In x v -> 0 <= x) -> exists w z, rootSIFT false neg v = Some w /\ rootSIFT true neg v = Some z /\
  z = map (fun x => / (sqrt (energy w) + eps) * x) w /\ sqrt (energy z) = sqrt (energy w) / (sqrt (energy w) + eps) /\ sqrt (energy z) < 1.
Proof. exact l2_claim. Qed.
Print Assumptions C74_normalized.

(* without support for negative entries, what is rejected in debug builds only *)
Theorem C74_undefined : forall v, v <> [] -> (rootSIFT false false v = None <->
  ~ ((forall x, In x v -> 0 <= x) \/ ((forall x, In x v -> x <= 0) /\ total v + eps < 0))).
Proof. exact refuses. Qed.
Print Assumptions C74_undefined.

(* a scaled vector has a result in the same direction *)
Theorem C74_scale : forall neg k v, 0 < k -> neg = true \/ (forall x, In x v -> 0 <= x) ->
  exists c w, 0 < c /\ c * c = k * (magnitude v + eps) / (k * magnitude v + eps) /\
    rootSIFT false neg v = Some w /\ rootSIFT false neg (map (fun x => k * x) v) = Some (map (fun x => c * x) w).
Proof. exact scale_claim. Qed.
Print Assumptions C74_scale.
Theorem C74_invariant_refuted : exists v w z, rootSIFT false false v = Some w /\ rootSIFT false false (map (fun x => 2 * x) v) = Some z /\ w <> z.
Proof. exact scale_refuted. Qed.
Print Assumptions C74_invariant_refuted.

(* squared distances of results are at most the L1 distance of the shares, and below 2 *)
Theorem C74_distance : forall a b, (forall x, In x a -> 0 <= x) -> (forall x, In x b -> 0 <= x) ->
  exists u w, rootSIFT false false a = Some u /\ rootSIFT false false b = Some w /\
    total (map (fun p => (fst p - snd p) * (fst p - snd p)) (combine u w)) <=
      total (map (fun p => Rabs (fst p / (magnitude a + eps) - snd p / (magnitude b + eps))) (combine a b)) /\
    total (map (fun p => (fst p - snd p) * (fst p - snd p)) (combine u w)) < 2.
Proof. exact dist_claim. Qed.
Print Assumptions C74_distance.

(* integer descriptors, which are accepted, are erased *)
Theorem C74_integers_erased : forall v, (forall x, In x v -> (0 <= x)%Z) -> rootSIFT_int v = Some (map (fun _ => 0%Z) v).
Proof. exact int_claim. Qed.
Print Assumptions C74_integers_erased.

(* sparseness is between 0, for equal magnitudes, and 1, for a single entry *)
Theorem C74_sparseness : forall v, (1 < length v)%nat -> ~ zero v ->
  exists s, sparseness v = Some s /\ 0 <= s <= 1 /\ (s = 0 <-> flat v) /\ (s = 1 <-> single v).
Proof. exact sparse_claim. Qed.
Print Assumptions C74_sparseness.
Theorem C74_sparseness_none : forall v, sparseness v = None <-> (length v <= 1)%nat \/ zero v.
Proof. exact sparse_none. Qed.
Print Assumptions C74_sparseness_none.
(* vectors of zeros are accepted, but have none *)
Theorem C74_sparseness_refuted : exists v, (1 < length v)%nat /\ sparseness v = None.
Proof. exists [0; 0]. split; [ cbn; lia | ]. apply sparse_none. right. intros x [<-|[<-|[]]]; reflexivity. Qed.
Print Assumptions C74_sparseness_refuted.
Theorem C74_sparseness_invariant : forall k v w, k <> 0 -> Permutation v w -> sparseness (map (fun x => k * x) v) = sparseness w.
Proof. intros k v w K P. rewrite sparse_scale by exact K. apply sparse_perm, P. Qed.
Print Assumptions C74_sparseness_invariant.

Example C74_ex : exists w, rootSIFT false true [-3; 0; 1] = Some w /\ energy w = 4 / (4 + eps) /\ exists a c, w = [a; 0; c] /\ a < 0 < c /\ a * a = 3 * (c * c).
Proof.
  destruct (root_claim true [-3; 0; 1] (or_introl eq_refl)) as (w & E & F & G). exists w. split; [ exact E | ].
  assert (M : magnitude [-3; 0; 1] = 4) by (unfold magnitude; cbn; rewrite Rabs_left, Rabs_R0, Rabs_R1 by lra; lra). rewrite M in *. split; [ exact G | ].
  assert (P := eps_pos). inversion F as [|? a ? ? (A1 & A2) F1]; subst. inversion F1 as [|? b ? ? (B1 & B2) F2]; subst. inversion F2 as [|? c ? ? (C1 & C2) F3]; subst. inversion F3; subst.
  exists a, c. rewrite Rabs_left in A1 by lra. rewrite Rabs_R0 in B1. rewrite Rabs_R1 in C1.
  assert (B : b = 0) by (unfold Rdiv in B1; rewrite Rmult_0_l in B1; destruct (Rmult_integral _ _ B1); assumption). subst b. split; [ reflexivity | ].
  split; [ split; [ apply (proj1 A2); lra | apply (proj2 C2); lra ] | ]. rewrite A1, C1. field. lra.
Qed.
Example C74_ex_sparse : sparseness [0; -5; 0] = Some 1 /\ sparseness [2; -2; 2; 2] = Some 0.
Proof.
  assert (A : ~ zero [0; -5; 0]) by (intros Z; assert (-5 = 0) by (apply Z; cbn; auto); lra).
  assert (B : ~ zero [2; -2; 2; 2]) by (intros Z; assert (-2 = 0) by (apply Z; cbn; auto); lra).
  destruct (sparse_claim [0; -5; 0] ltac:(cbn; lia) A) as (s & E & _ & _ & S1). destruct (sparse_claim [2; -2; 2; 2] ltac:(cbn; lia) B) as (t & F & _ & T0 & _).
  rewrite E, F. split; f_equal.
  - apply S1. exists [0], (-5), [0]. split; [ reflexivity | ]. split; [ lra | ]. split; intros x [<-|[]]; reflexivity.
  - apply T0. exists 2. intros x [<-|[<-|[<-|[<-|[]]]]]; try (apply Rabs_right; lra). rewrite Rabs_left; lra.
Qed.
