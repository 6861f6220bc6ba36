(** C23: matrix size objects: equality, totals, transposition, conversions. *)
From Coq Require Import ZArith List Lia Bool.
From Verif Require Import Model.MatSize Spec.MatSize Proofs.MatSize.
Import ListNotations.
Open Scope Z_scope.

(** equality of two sizes of the same integer type: both without elements, or identical *)
Theorem C23_equality_iff : forall t a b, 0 < bits t -> wf t b ->
  (eqb t a b = true <-> (empty a = true /\ empty b = true) \/ a = b).
Proof. exact eqb_spec. Qed.
Print Assumptions C23_equality_iff.

Theorem C23_equality_equivalence : forall t a b c, 0 < bits t -> wf t a -> wf t b -> wf t c ->
  eqb t a a = true /\ (eqb t a b = eqb t b a) /\ (eqb t a b = true -> eqb t b c = true -> eqb t a c = true).
Proof. exact eqb_equivalence. Qed.
Print Assumptions C23_equality_equivalence.

(** total is the element count modulo 2^64, hence exact when it fits; then empty means: no dimension, or one of size 0 *)
Theorem C23_total : forall m, Forall (fun x => 0 <= x < 2^64) m ->
  total m = elements m mod 2^64 /\ (elements m < 2^64 -> total m = elements m /\ (empty m = true <-> m = [] \/ In 0 m)).
Proof. exact (fun m F => conj (total_mod m F) (fun H => conj (total_exact m F H) (empty_iff m F H))). Qed.
Print Assumptions C23_total.

(** a product that wraps to 0 makes a size without any null dimension "empty" and equal to every empty size *)
Theorem C23_empty_iff_null_dimension_refuted : exists m, Forall (fun x => 0 < x < 2^64) m /\ empty m = true /\ eqb T_size_t m [0; 3] = true.
Proof. exact empty_wraps. Qed.
Print Assumptions C23_empty_iff_null_dimension_refuted.

Theorem C23_transpose_involution : forall t r c, 0 < bits t <= 64 -> wf t [r; c] ->
  transpose t [r; c] = Some [c; r] /\ transpose t [c; r] = Some [r; c] /\ total [c; r] = total [r; c].
Proof.
  exact (fun t r c Hb F => conj (proj1 (transpose_spec t r c (proj1 Hb) F))
    (conj (proj2 (proj2 (transpose_spec t r c (proj1 Hb) F))) (transpose_total t r c Hb F))).
Qed.
Print Assumptions C23_transpose_involution.

(** between different integer types, symmetry holds when the values fit both types, and fails otherwise *)
Theorem C23_cross_type_symmetric : forall t u a b, 0 < bits t -> 0 < bits u -> wf t a -> wf u a -> wf t b -> wf u b -> eqb t a b = eqb u b a.
Proof. exact cross_type_sym. Qed.
Print Assumptions C23_cross_type_symmetric.

Theorem C23_cross_type_symmetry_refuted : exists a b, mk_explicit T_u8 [44; 7] = Some a /\ mk_explicit T_int [300; 7] = Some b /\
  eqb T_u8 a b = true /\ eqb T_int b a = false.
Proof. exact cross_type_asymmetric. Qed.
Print Assumptions C23_cross_type_symmetry_refuted.

(** a negative size is rejected for int but silently converted for size_t, the default type *)
Theorem C23_negative_size_rejected_refuted :
  mk_explicit T_int [-1; 5] = None /\ exists m, mk_explicit T_size_t [-1; 5] = Some m /\ nth 0 m 0 = 2^64 - 1.
Proof. exact explicit_negative. Qed.
Print Assumptions C23_negative_size_rejected_refuted.

(** from a list of sizes: rejected exactly when one of them, converted to int, is negative; sizes that fit int are rejected exactly when negative *)
Theorem C23_sizes_rejected_iff : forall t l, (cvtSizes t l = None <-> exists x, In x l /\ cast T_int x < 0) /\
  (Forall (fun x => - 2^31 <= x < 2^31) l -> (cvtSizes t l = None <-> exists x, In x l /\ x < 0)) /\
  (forall m, cvtSizes t l = Some m -> m = map (cast t) l).
Proof. exact cvtSizes_rejects. Qed.
Print Assumptions C23_sizes_rejected_iff.

Theorem C23_cvsize_roundtrip : forall t w h, 0 < bits t -> 0 <= w < 2^31 -> 0 <= h < 2^31 -> in_range t w -> in_range t h ->
  exists m, of_cvsize t (w, h) = Some m /\ to_cvsize m = Some (w, h) /\ eq_cvsize m (w, h) = true /\ length m = 2%nat.
Proof. exact cvsize_roundtrip. Qed.
Print Assumptions C23_cvsize_roundtrip.

(** equal sizes may compare differently with a cv::Size, and two unequal non-empty sizes may both equal the same cv::Size *)
Theorem C23_cvsize_comparison_congruent_refuted :
  (exists a b s, eqb T_size_t a b = true /\ eq_cvsize a s = true /\ eq_cvsize b s = false) /\
  (exists a b s, of_cvsize T_size_t s = Some b /\ eq_cvsize a s = true /\ eq_cvsize b s = true /\ eqb T_size_t a b = false /\ empty a = false).
Proof. exact (conj eq_not_congruence one_dim_cvsize). Qed.
Print Assumptions C23_cvsize_comparison_congruent_refuted.

Example C23_ex_wf : wf T_size_t [480; 640; 3]. Proof. repeat constructor; cbn; lia. Qed.
Example C23_ex : total [480; 640; 3] = 921600 /\ eqb T_size_t [480; 640; 3] [480; 640; 3] = true /\ eqb T_size_t [480; 640] [640; 480] = false /\
  eqb T_size_t [] [0; 640] = true /\ transpose T_size_t [480; 640] = Some [640; 480].
Proof. repeat split. Qed.
