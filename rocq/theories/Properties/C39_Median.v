(** C39: histogram median and masked median blur. *)
From Coq Require Import ZArith List Bool Permutation Lia.
From Verif Require Import Lib.Grid Model.Histogram Spec.Histogram Proofs.Histogram.
Import ListNotations.
Open Scope Z_scope.

(** every bin counts the selected pixels of that value; the total is the number of selected pixels *)
Theorem C39_histogram_exact : forall d px mask, in_depth d px ->
  length (fst (hist_counts d px mask)) = nbins d /\
  snd (hist_counts d px mask) = Z.of_nat (length (selected px mask)) /\
  forall k, nth k (fst (hist_counts d px mask)) 0 = count (fun v => v =? Z.of_nat k) (selected px mask).
Proof. exact hist_exact. Qed.
Print Assumptions C39_histogram_exact.

(** the element of rank floor(n/2) (upper median for even n) *)
Theorem C39_median_is_upper_median : forall d px mask, in_depth d px -> selected px mask <> [] ->
  exists v, calc_median d px mask = Some v /\ rank_value (selected px mask) (Z.of_nat (length (selected px mask)) / 2) v.
Proof. exact median_rank. Qed.
Print Assumptions C39_median_is_upper_median.

Theorem C39_rank_determines_value : forall l k v w, rank_value l k v -> rank_value l k w -> v = w.
Proof. exact rank_unique. Qed.
Print Assumptions C39_rank_determines_value.

(** no pixel selected: the scan runs past the end of the histogram *)
Theorem C39_empty_selection_overruns : forall d px mask, in_depth d px -> selected px mask = [] -> calc_median d px mask = None.
Proof. exact median_empty. Qed.
Print Assumptions C39_empty_selection_overruns.

(** masked blur: element of rank floor((n-1)/2) of the masked-in pixels within the kernel, default value if there is none *)
Theorem C39_blur_is_lower_median : forall nthel f m rows cols ksize def y x, nth_element_contract nthel -> 1 < ksize -> 0 <= y < rows -> 0 <= x < cols ->
  near_vals f m rows cols (ksize / 2) y x <> [] ->
  rank_value (near_vals f m rows cols (ksize / 2) y x) ((Z.of_nat (length (near_vals f m rows cols (ksize / 2) y x)) - 1) / 2)
    (median_blur nthel f m rows cols ksize def y x).
Proof. exact blur_rank. Qed.
Print Assumptions C39_blur_is_lower_median.

Theorem C39_blur_default : forall nthel f m rows cols ksize def y x, 1 < ksize -> 0 <= y < rows -> 0 <= x < cols ->
  near_vals f m rows cols (ksize / 2) y x = [] -> median_blur nthel f m rows cols ksize def y x = def.
Proof. exact blur_default. Qed.
Print Assumptions C39_blur_default.

(** the kernel buffer (kernel size squared) is never overrun *)
Theorem C39_blur_buffer_fits : forall f m rows cols off y x, 0 <= y < rows -> 0 <= x < cols -> 0 <= off ->
  Z.of_nat (length (blur_vals f m rows cols off y x)) <= (2 * off + 1) * (2 * off + 1).
Proof. exact blur_buffer_fits. Qed.
Print Assumptions C39_blur_buffer_fits.

(** the two medians of the module are not the same statistic: on two values one picks the larger, the other the smaller *)
Definition sort2 (l : list Z) (_ : nat) : list Z := match l with [a; b] => if a <=? b then [a; b] else [b; a] | _ => l end.
Theorem C39_same_median_refuted : exists f m, map (fun x => f 0 x) [0; 1] = [3; 7] /\
  calc_median false [3; 7] None = Some 7 /\ median_blur sort2 f m 1 2 3 0 0 0 = 3.
Proof. exists (fun _ x => if x =? 0 then 3 else 7), (fun _ _ => 1). repeat split; vm_compute; reflexivity. Qed.
Print Assumptions C39_same_median_refuted.

Example C39_ex_median : calc_median false [9; 4; 200; 4; 7] (Some [1; 1; 1; 0; 255]) = Some 9 /\
  rank_value (selected [9; 4; 200; 4; 7] (Some [1; 1; 1; 0; 255])) 2 9.
Proof. split; [ vm_compute; reflexivity |]. split; [ cbn; auto | vm_compute; split; congruence ]. Qed.
Example C39_ex_empty_mask : calc_median false [9; 4] (Some [0; 0]) = None.
Proof. vm_compute. reflexivity. Qed.
