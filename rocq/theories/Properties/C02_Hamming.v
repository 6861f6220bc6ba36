(** C02 - popcount / hdist / gdist. [nb] is sizeof(Tin); 31 bytes is the largest integer whose bit
    count still fits the uint8_t result type. *)
From Coq Require Import NArith List.
From Verif Require Import Model.Bits Spec.Bits Proofs.Bits.
Import ListNotations.
Open Scope N_scope.

Theorem C02_popcount_counts_ones : forall nb x, (nb <= 31)%nat -> popcount nb x = Some (ones (8 * nb) x).
Proof. exact popcount_ones. Qed.
Print Assumptions C02_popcount_counts_ones.

Theorem C02_hdist_counts_differences : forall nb a b, (nb <= 31)%nat -> hdist nb a b = Some (differing (8 * nb) a b).
Proof. exact hdist_differing. Qed.
Print Assumptions C02_hdist_counts_differences.

Theorem C02_hdist_zero_iff_equal : forall nb a b, (nb <= 31)%nat ->
  a < 2 ^ N.of_nat (8 * nb) -> b < 2 ^ N.of_nat (8 * nb) -> (hdist nb a b = Some 0 <-> a = b).
Proof.
  intros nb a b Hn Ha Hb. rewrite hdist_differing by exact Hn. rewrite <- (differing_zero (8 * nb) a b Ha Hb).
  split; [intros H; injection H; trivial|intros ->; reflexivity].
Qed.
Print Assumptions C02_hdist_zero_iff_equal.

Theorem C02_hdist_symmetric : forall nb a b, (nb <= 31)%nat -> hdist nb a b = hdist nb b a.
Proof. intros nb a b H. rewrite !hdist_differing by exact H. rewrite differing_sym. reflexivity. Qed.
Print Assumptions C02_hdist_symmetric.

Theorem C02_hdist_triangle : forall nb a b c ab bc ac, (nb <= 31)%nat ->
  hdist nb a b = Some ab -> hdist nb b c = Some bc -> hdist nb a c = Some ac -> ac <= ab + bc.
Proof.
  intros nb a b c ab bc ac H. rewrite !hdist_differing by exact H. generalize (8 * nb)%nat. intros w E1 E2 E3.
  injection E1 as <-. injection E2 as <-. injection E3 as <-. apply differing_triangle.
Qed.
Print Assumptions C02_hdist_triangle.

(** the array distance is the true number of differing bits reduced to the accumulator width *)
Theorem C02_hdist_arr_mod : forall w nb xs ys, (nb <= 31)%nat -> length xs = length ys ->
  hdist_arr w nb xs ys 0 = Some (differing_arr (8 * nb) xs ys mod 2 ^ w).
Proof.
  intros w nb xs ys Hn Hl. rewrite hdist_arr_sum; [reflexivity|exact Hn| |exact Hl].
  apply N.neq_0_lt_0. apply N.pow_nonzero. discriminate.
Qed.
Print Assumptions C02_hdist_arr_mod.

(** so it is exact for every array pair exactly as long as the count fits; it does not fit for all arrays *)
Theorem C02_hdist_arr_uint8_exact_refuted : exists xs ys, length xs = length ys /\
  hdist_arr 8 8 xs ys 0 <> Some (differing_arr (8 * 8) xs ys).
Proof.
  exists (repeat (2 ^ 64 - 1) 4), (repeat 0 4). split; [reflexivity|]. vm_compute. discriminate.
Qed.
Print Assumptions C02_hdist_arr_uint8_exact_refuted.

Theorem C02_gdist_le_hdist : forall nb a b g h, (nb <= 31)%nat ->
  gdist nb a b = Some g -> hdist nb a b = Some h -> g <= h.
Proof. exact gdist_le_hdist. Qed.
Print Assumptions C02_gdist_le_hdist.

Theorem C02_gdist_is_popcount_difference : forall nb a b, (nb <= 31)%nat ->
  gdist nb a b = Some (N.max (ones (8 * nb) a) (ones (8 * nb) b) - N.min (ones (8 * nb) a) (ones (8 * nb) b)).
Proof. exact gdist_ones. Qed.
Print Assumptions C02_gdist_is_popcount_difference.

Example C02_ex : popcount 2 65535 = Some 16 /\ hdist 2 0x00FF 0x0F0F = Some 8 /\ gdist 2 0x00FF 0x0F0F = Some 0.
Proof. vm_compute. repeat split. Qed.
Example C02_ex_arr : hdist_arr 8 2 [0; 0xFFFF] [1; 0] 0 = Some 17.
Proof. reflexivity. Qed.
