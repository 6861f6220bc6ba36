(** C09 - expand_bits / extend_bits. [w] = number of bits of T, [k] = nWordBitSize. *)
From Coq Require Import NArith List.
From Verif Require Import Model.Bits Spec.Bits Proofs.Bits.
Open Scope N_scope.

Theorem C09_expand_bits_interleaves : forall w k v, 1 < k -> k <= w -> w <= 32 ->
  exists r, expand_bits w k v = Some r /\ r < 2 ^ w /\
    forall i, N.testbit r i = andb (andb (i mod k =? 0) (i / k <? w / k)) (N.testbit v (i / k)).
Proof. exact expand_bits_spec. Qed.
Print Assumptions C09_expand_bits_interleaves.

Theorem C09_expand_bits_injective : forall w k a b, 1 < k -> k <= w -> w <= 32 ->
  a < 2 ^ (w / k) -> b < 2 ^ (w / k) -> expand_bits w k a = expand_bits w k b -> a = b.
Proof. exact expand_bits_injective. Qed.
Print Assumptions C09_expand_bits_injective.

(** on 64-bit types the int-typed shifts are undefined *)
Theorem C09_expand_bits_64bit_refuted : exists v, v < 2 ^ 64 /\ expand_bits 64 4 v = None.
Proof. exists 1. split; reflexivity. Qed.
Print Assumptions C09_expand_bits_64bit_refuted.

(** extend_bits maps 0 to 0 and the maximum to the maximum, strictly monotonically, as long as the
    extension at most doubles the bit count *)
Theorem C09_extend_bits_zero_max : forall w o e, 0 < o -> o <= e -> e <= 2 * o -> e <= w ->
  extend_bits w 0 o e = 0 /\ extend_bits w (2 ^ o - 1) o e = 2 ^ e - 1.
Proof.
  intros w o e H0 H1 H2 H3. split; [|apply extend_bits_max; assumption].
  destruct (extend_bits_val w 0 o e H1 H2 H3) as [-> _]; [|].
  - apply N.neq_0_lt_0, N.pow_nonzero. discriminate.
  - rewrite N.div_0_l; [reflexivity|]. apply N.pow_nonzero. discriminate.
Qed.
Print Assumptions C09_extend_bits_zero_max.

Theorem C09_extend_bits_strictly_monotone : forall w a b o e, o <= e -> e <= 2 * o -> e <= w -> a < b -> b < 2 ^ o ->
  extend_bits w a o e < extend_bits w b o e.
Proof. exact extend_bits_mono. Qed.
Print Assumptions C09_extend_bits_strictly_monotone.

(** beyond doubling, the documented max-max mapping fails *)
Theorem C09_extend_bits_max_beyond_double_refuted : exists w o e, 0 < o /\ o <= e /\ e <= w /\
  extend_bits w (2 ^ o - 1) o e <> 2 ^ e - 1.
Proof. exists 8, 1, 3. repeat split; vm_compute; discriminate. Qed.
Print Assumptions C09_extend_bits_max_beyond_double_refuted.

Example C09_ex : expand_bits 32 4 0xB5 = Some 0x10110101 /\ 0xB5 < 2 ^ (32 / 4).
Proof. vm_compute. split; reflexivity. Qed.
Example C09_ex_extend : extend_bits 8 31 5 8 = 255 /\ extend_bits 8 16 5 8 = 132.
Proof. vm_compute. split; reflexivity. Qed.
