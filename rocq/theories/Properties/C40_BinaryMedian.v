(** C40: binary median and consensus through integral images; NEON integral image. *)
From Coq Require Import ZArith List Bool Lia.
From Verif Require Import Lib.Grid Model.Integral Spec.Integral Proofs.Integral.
Import ListNotations.
Open Scope Z_scope.

(** 255 iff strictly more than half of the in-image kernel pixels are positive *)
Theorem C40_unmasked_majority : forall f rows cols ksize y x, 0 <= y < rows -> 0 <= x < cols -> 1 < ksize ->
  bin_median true f rows cols ksize y x =
  if hits rows cols (ksize / 2) y x (fun _ _ => true) <? 2 * hits rows cols (ksize / 2) y x (nz f) then 255 else 0.
Proof. exact median_majority. Qed.
Print Assumptions C40_unmasked_majority.

Theorem C40_masked_majority : forall f m rows cols ksize def y x, 0 <= y < rows -> 0 <= x < cols -> 1 < ksize ->
  bin_median_masked f m rows cols ksize def y x =
  (let h := hits rows cols (ksize / 2) y x (nz m) in let p := hits rows cols (ksize / 2) y x (fun a b => nz m a b && nz f a b) in
   if h =? 0 then def else if h <? 2 * p then 255 else 0).
Proof. exact median_masked_majority. Qed.
Print Assumptions C40_masked_majority.

Theorem C40_unmasked_equals_full_mask : forall f m rows cols ksize def y x, 0 <= y < rows -> 0 <= x < cols -> 1 < ksize ->
  (forall a b, 0 <= a < rows -> 0 <= b < cols -> m a b <> 0) ->
  bin_median_masked f m rows cols ksize def y x = bin_median true f rows cols ksize y x.
Proof. exact unmasked_is_masked_all. Qed.
Print Assumptions C40_unmasked_equals_full_mask.

Theorem C40_consensus : forall f mc rows cols ksize y x, 0 <= y < rows -> 0 <= x < cols -> 1 < ksize ->
  bin_consensus true f (Some mc) rows cols ksize y x = if mc y x <=? hits rows cols (ksize / 2) y x (nz f) then 255 else 0.
Proof. exact consensus_exact. Qed.
Print Assumptions C40_consensus.

(** entries of the 32-bit integral image stay in range while the image has fewer than 2^31 pixels (binary) or 2^31/255 (raw) *)
Theorem C40_integral_range : forall force f mask y x, (forall a b, 0 <= f a b < 256) -> 0 <= y -> 0 <= x ->
  0 <= binary_integral force f mask y x <= (if force then 1 else 255) * (y * x).
Proof. exact integral_range. Qed.
Print Assumptions C40_integral_range.

(** skipping the conversion is harmless for 0/1 images ... *)
Theorem C40_raw_01 : forall f rows cols ksize y x, 0 <= y < rows -> 0 <= x < cols -> 1 < ksize ->
  (forall a b, 0 <= a < rows -> 0 <= b < cols -> f a b = 0 \/ f a b = 1) ->
  bin_median false f rows cols ksize y x = bin_median true f rows cols ksize y x.
Proof. exact raw_01. Qed.
Print Assumptions C40_raw_01.

(** ... but turns the median into a dilation for the usual 0/255 images (kernels of fewer than 510 pixels) *)
Theorem C40_raw_255_is_dilation : forall f rows cols ksize y x, 0 <= y < rows -> 0 <= x < cols -> 1 < ksize ->
  (forall a b, 0 <= a < rows -> 0 <= b < cols -> f a b = 0 \/ f a b = 255) -> hits rows cols (ksize / 2) y x (fun _ _ => true) < 510 ->
  bin_median false f rows cols ksize y x = if hits rows cols (ksize / 2) y x (nz f) =? 0 then 0 else 255.
Proof. exact raw_255_dilates. Qed.
Print Assumptions C40_raw_255_is_dilation.

(** NEON path: every entry is the sum of the bytes above and to the left, while that sum fits an int *)
Theorem C40_neon_integral : forall m cols y x, byte_matrix cols m -> m <> [] -> (0 < cols)%nat -> 255 * Z.of_nat cols * Z.of_nat (length m) < 2147483648 ->
  (y <= length m)%nat -> (x <= cols)%nat -> nth x (nth y (neon_integral m) []) 0 = block_sum m y x.
Proof. exact neon_integral_ok. Qed.
Print Assumptions C40_neon_integral.

(** one white pixel among nine: background for the converting median, foreground for the raw one *)
Definition dot : Z -> Z -> Z := fun y x => if (y =? 1) && (x =? 1) then 255 else 0.
Example C40_ex_dot : bin_median true dot 3 3 3 1 1 = 0 /\ bin_median false dot 3 3 3 1 1 = 255 /\ hits 3 3 1 1 1 (nz dot) = 1 /\ hits 3 3 1 1 1 (fun _ _ => true) = 9.
Proof. repeat split; vm_compute; reflexivity. Qed.
Example C40_ex_corner : hits 3 3 1 0 0 (fun _ _ => true) = 4 /\ bin_median_masked dot (fun y x => if y =? x then 1 else 0) 3 3 3 7 0 0 = 0 /\
  bin_median_masked dot (fun y x => if (y =? 1) && (x =? 1) then 1 else 0) 3 3 3 7 0 0 = 255 /\ bin_median_masked dot (fun _ _ => 0) 3 3 3 7 0 0 = 7.
Proof. repeat split; vm_compute; reflexivity. Qed.
(** a 2 x 20 matrix: vector part of 16 columns and a scalar tail *)
Example C40_ex_neon : nth 19 (nth 2 (neon_integral [repeat 255 20; repeat 1 20]) []) 0 = 19 * 256 /\ block_sum [repeat 255 20; repeat 1 20] 2 19 = 19 * 256.
Proof. split; vm_compute; reflexivity. Qed.
(** the declared default output depth is refused by the function's own assertion *)
Example C40_ex_default_depth : depth_accepted default_depth = false.
Proof. reflexivity. Qed.
