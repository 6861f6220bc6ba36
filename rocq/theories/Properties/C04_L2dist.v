(** C04 - squared L2 distances and the L2 distance of colour vectors. *)
From Coq Require Import ZArith List.
From Verif Require Import Model.Distances Spec.Distances Proofs.Distances.
Import ListNotations.
Open Scope Z_scope.

Theorem C04_L2sqrdist_8bit_exact : forall a b, same_type 8 a b -> L2sqrdist 8 a b = Some ((a - b) ^ 2).
Proof. exact L2sqr_8_exact. Qed.
Print Assumptions C04_L2sqrdist_8bit_exact.

(** 16-bit: exact up to a difference of 46340, undefined (signed overflow) for every larger difference *)
Theorem C04_L2sqrdist_16bit : forall a b, same_type 16 a b ->
  L2sqrdist 16 a b = if Z.abs (a - b) <=? 46340 then Some ((a - b) ^ 2) else None.
Proof. exact L2sqr_16. Qed.
Print Assumptions C04_L2sqrdist_16bit.

Theorem C04_L2sqrdist_16bit_defined_refuted : exists a b, same_type 16 a b /\ L2sqrdist 16 a b = None.
Proof. exists 65535, 0. split; [left; repeat split; discriminate|reflexivity]. Qed.
Print Assumptions C04_L2sqrdist_16bit_defined_refuted.

(** multi-channel 8-bit vectors: true sum of squares modulo the accumulator; the integer L2dist takes the square root of a
    16-bit accumulator *)
Theorem C04_L2dist_8bit_radicand : forall xs ys, Forall2 (same_type 8) xs ys ->
  L2dist_radicand 8 xs ys = Some (sum_sqr_diff xs ys mod 2 ^ 16).
Proof. intros xs ys H. exact (L2sqr_arr8_mod0 16 xs ys (Zle_0_pos 16) H). Qed.
Print Assumptions C04_L2dist_8bit_radicand.

(** so the L2 distance of two 3-channel colours (e.g. cv::Vec3b, used by the 3-channel ViBe and PBAS models) is not the
    Euclidean distance: two colours more than 255 apart are reported as less than 5 apart *)
Theorem C04_L2dist_3ch_exact_refuted : exists xs ys, length xs = 3%nat /\ Forall2 (same_type 8) xs ys /\
  255 ^ 2 < sum_sqr_diff xs ys /\ exists r, L2dist_radicand 8 xs ys = Some r /\ r < 5 ^ 2.
Proof.
  exists [255; 23; 0], [0; 0; 0]. split; [reflexivity|]. split; [repeat constructor; vm_compute; (discriminate || reflexivity)|].
  split; [reflexivity|]. exists 18. split; reflexivity.
Qed.
Print Assumptions C04_L2dist_3ch_exact_refuted.

(** with a size_t accumulator (the nElements overloads) the radicand is exact *)
Theorem C04_L2sqrdist_array_exact_wide : forall xs ys, Forall2 (same_type 8) xs ys -> sum_sqr_diff xs ys < 2 ^ 64 ->
  L2sqrdist_arr 8 64 xs ys 0 = Some (sum_sqr_diff xs ys).
Proof.
  intros xs ys H Hb. rewrite (L2sqr_arr8_mod0 64 xs ys (Zle_0_pos 64) H). rewrite Z.mod_small; [reflexivity|].
  split; [apply sum_sqr_diff_nonneg|exact Hb].
Qed.
Print Assumptions C04_L2sqrdist_array_exact_wide.

Example C04_ex : L2sqrdist 8 0 255 = Some 65025 /\ L2sqrdist 16 46340 0 = Some 2147395600 /\ L2sqrdist 16 46341 0 = None.
Proof. repeat split. Qed.
Example C04_ex2 : L2dist_radicand 8 [10; 20; 30] [13; 16; 30] = Some 25.
Proof. reflexivity. Qed.
