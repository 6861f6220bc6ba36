(** C05 - colour distortion of 8-bit colours (cdist). *)
From Coq Require Import ZArith List.
From Verif Require Import Model.Distances Spec.Distances Proofs.Distances.
Import ListNotations.
Open Scope Z_scope.

(** equal colours, and pairs of greys, have distortion 0 *)
Theorem C05_cdist_zero_cases : forall xs ys, length xs = length ys -> xs = ys \/ (grey xs /\ grey ys) -> cdist 8 xs ys = Some 0.
Proof. exact cdist_shortcut. Qed.
Print Assumptions C05_cdist_zero_cases.

(** otherwise it is defined (no overflow) and equals the truncated square root of the rounded-up squared distance
    of the colour from the line through the background colour; that quantity never exceeds the squared norm of the colour *)
Theorem C05_cdist_value : forall xs ys, (2 <= length xs)%nat -> length xs = length ys -> Z.of_nat (length xs) <= 65536 ->
  Forall (in_u 8) xs -> Forall (in_u 8) ys -> xs <> ys -> ~ (grey xs /\ grey ys) ->
  exists X r, residual_ceil xs ys X /\ 0 <= X <= norm2 xs /\ cdist 8 xs ys = Some r /\ 0 <= r /\ r * r <= X < (r + 1) * (r + 1).
Proof. exact cdist_value. Qed.
Print Assumptions C05_cdist_value.

(** proportional colours have distortion 0 *)
Theorem C05_cdist_proportional_zero : forall xs ys p q, (2 <= length xs)%nat -> length xs = length ys -> Z.of_nat (length xs) <= 65536 ->
  Forall (in_u 8) xs -> Forall (in_u 8) ys -> norm2 ys <> 0 -> q <> 0 -> map (Z.mul q) xs = map (Z.mul p) ys ->
  cdist 8 xs ys = Some 0.
Proof. exact cdist_proportional. Qed.
Print Assumptions C05_cdist_proportional_zero.

(** 16-bit colours: the promoted products overflow int *)
Theorem C05_cdist_16bit_defined_refuted : exists xs ys, length xs = length ys /\ Forall (in_u 16) xs /\ Forall (in_u 16) ys /\
  cdist 16 xs ys = None.
Proof.
  exists [65535; 0; 0], [0; 1; 0]. split; [reflexivity|]. repeat split; try reflexivity;
  repeat constructor; vm_compute; (discriminate || reflexivity).
Qed.
Print Assumptions C05_cdist_16bit_defined_refuted.

(** mix of an L1 distance and a distortion: half the former plus four times the latter, rounded down *)
Theorem C05_cmix_value : forall l1 cd, 0 <= l1 -> 0 <= cd -> l1 + 8 * cd < 2 ^ 64 ->
  2 * cmixdist l1 cd <= l1 + 8 * cd < 2 * cmixdist l1 cd + 2.
Proof. exact cmix_value. Qed.
Print Assumptions C05_cmix_value.

(** on 8-bit pixels the L1 part is only known modulo 256 *)
Theorem C05_cmix_pixel_value : forall xs ys cd, Forall2 (same_type 8) xs ys -> cdist 8 xs ys = Some cd -> 0 <= cd < 2 ^ 32 ->
  exists v, cmixdist_px xs ys = Some v /\ 2 * v <= sum_abs_diff xs ys mod 256 + 8 * cd < 2 * v + 2.
Proof. exact cmix_px_value. Qed.
Print Assumptions C05_cmix_pixel_value.

(** so two clearly different colours can have mixed distance 0 *)
Theorem C05_cmix_separates_refuted : exists xs ys, Forall2 (same_type 8) xs ys /\ sum_abs_diff xs ys = 256 /\ cmixdist_px xs ys = Some 0.
Proof.
  exists [192; 96; 96], [64; 32; 32]. split; [| split; vm_compute; reflexivity ].
  repeat constructor; vm_compute; (discriminate || reflexivity).
Qed.
Print Assumptions C05_cmix_separates_refuted.

Example C05_ex_cmix : cmixdist 101 7 = 78 /\ cmixdist_px [200; 10; 10] [10; 10; 200] = Some (62 + 4 * 199).
Proof. split; vm_compute; reflexivity. Qed.
Example C05_ex : cdist 8 [10; 20; 30] [20; 40; 60] = Some 0 /\ cdist 8 [200; 10; 10] [10; 10; 200] = Some 199.
Proof. split; reflexivity. Qed.
