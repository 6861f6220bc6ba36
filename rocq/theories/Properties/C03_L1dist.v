(** C03 - integer L1 distances. *)
From Coq Require Import ZArith List.
From Verif Require Import Model.Distances Spec.Distances Proofs.Distances.
Import ListNotations.
Open Scope Z_scope.

Theorem C03_L1dist_scalar_exact : forall w a b, width w -> same_type w a b -> L1dist w a b = Some (Z.abs (a - b)).
Proof. exact L1dist_exact. Qed.
Print Assumptions C03_L1dist_scalar_exact.

(** fixed-channel overload: exact sum modulo 2^wo, wo the width of the output type *)
Theorem C03_L1dist_array_mod : forall w wo xs ys, width w -> 0 <= wo -> Forall2 (same_type w) xs ys ->
  L1dist_arr w wo xs ys 0 = Some (sum_abs_diff xs ys mod 2 ^ wo).
Proof. exact L1dist_arr_mod0. Qed.
Print Assumptions C03_L1dist_array_mod.

(** hence exact if and only if the true sum fits the output type *)
Theorem C03_L1dist_array_exact_iff : forall w wo xs ys, width w -> 0 <= wo -> Forall2 (same_type w) xs ys ->
  (L1dist_arr w wo xs ys 0 = Some (sum_abs_diff xs ys) <-> sum_abs_diff xs ys < 2 ^ wo).
Proof.
  intros w wo xs ys Hw Hwo H. rewrite C03_L1dist_array_mod by assumption.
  assert (Hp : 0 < 2 ^ wo) by (apply Z.pow_pos_nonneg; [reflexivity|exact Hwo]). split.
  - intros E. injection E as E. rewrite <- E. apply Z.mod_pos_bound. exact Hp.
  - intros Hl. rewrite Z.mod_small; [reflexivity|]. split; [apply sum_abs_diff_nonneg|exact Hl].
Qed.
Print Assumptions C03_L1dist_array_exact_iff.

(** the default output type of 8-bit channels is 8 bits: not exact for all pixels *)
Theorem C03_L1dist_array_default_exact_refuted : exists xs ys, Forall2 (same_type 8) xs ys /\
  L1dist_arr 8 8 xs ys 0 <> Some (sum_abs_diff xs ys).
Proof.
  exists [255; 1; 0], [0; 0; 0]. split; [|vm_compute; discriminate].
  repeat constructor; vm_compute; (discriminate || reflexivity).
Qed.
Print Assumptions C03_L1dist_array_default_exact_refuted.

Theorem C03_L1dist_masked_exact : forall w xs ys m, width w -> Forall2 (Forall2 (same_type w)) xs ys ->
  length m = length xs -> masked_sum xs ys m < 2 ^ 64 ->
  L1dist_masked w xs ys (Some m) 0 = Some (masked_sum xs ys m).
Proof. intros w xs ys m Hw H Hl Hb. exact (L1dist_masked_exact w xs ys m 0 Hw H Hl (Z.le_refl 0) Hb). Qed.
Print Assumptions C03_L1dist_masked_exact.

Example C03_ex : L1dist 8 3 250 = Some 247 /\ same_type 8 3 250 /\ L1dist 16 (-32768) 32767 = Some 65535.
Proof. split; [reflexivity|]. split; [left; repeat split; discriminate|reflexivity]. Qed.
Example C03_ex_mask : L1dist_masked 8 [[1;2];[3;4]] [[5;5];[9;9]] (Some [0;1]) 0 = Some 11.
Proof. reflexivity. Qed.
