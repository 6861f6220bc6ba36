(** C01 - get_next_pow2 / ispow2. *)
From Coq Require Import NArith.
From Verif Require Import Model.Bits Spec.Bits Proofs.Bits.
Open Scope N_scope.

Theorem C01_get_next_pow2_least : forall n, 1 <= n -> n <= 2 ^ 31 -> least_pow2_above n (get_next_pow2 n).
Proof. exact get_next_pow2_least. Qed.
Print Assumptions C01_get_next_pow2_least.

Theorem C01_get_next_pow2_zero_outside : forall n, n < 2 ^ 32 -> (n = 0 \/ 2 ^ 31 < n) -> get_next_pow2 n = 0.
Proof. exact get_next_pow2_overflow. Qed.
Print Assumptions C01_get_next_pow2_zero_outside.

Theorem C01_ispow2_iff : forall w n, n < 2 ^ w -> ispow2 w n = true <-> (n = 0 \/ is_power_of_two n).
Proof. exact ispow2_spec. Qed.
Print Assumptions C01_ispow2_iff.

Example C01_ex_least : get_next_pow2 1000 = 1024 /\ 1 <= 1000 /\ 1000 <= 2 ^ 31.
Proof. vm_compute. repeat split; discriminate. Qed.
Example C01_ex_overflow : get_next_pow2 (2 ^ 31 + 1) = 0 /\ 2 ^ 31 < 2 ^ 31 + 1 /\ 2 ^ 31 + 1 < 2 ^ 32.
Proof. vm_compute. repeat split. Qed.
Example C01_ex_ispow2 : ispow2 8 64 = true /\ ispow2 8 65 = false /\ 65 < 2 ^ 8.
Proof. vm_compute. repeat split. Qed.
