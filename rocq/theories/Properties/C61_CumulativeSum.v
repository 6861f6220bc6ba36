(** C61: cumulativeSum. *)
From Coq Require Import List ZArith Lia.
From Verif Require Import Model.Vectors Spec.Vectors Proofs.Vectors.
Import ListNotations.
Open Scope Z_scope.

(** entry k is the sum of the first k+1 values modulo the range of the INPUT type *)
Theorem C61_cumulativeSum_mod : forall w l k, 0 <= w -> (k < length l)%nat ->
  nth_error (cumulativeSum w l) k = Some (zsum (firstn (S k) l) mod 2 ^ w).
Proof. intros w l k Hw. exact (partial_sum_spec w l 0 Hw k). Qed.
Print Assumptions C61_cumulativeSum_mod.

Theorem C61_cumulativeSum_length : forall w l, length (cumulativeSum w l) = length l.
Proof. intros w l. exact (partial_sum_length w l 0). Qed.
Print Assumptions C61_cumulativeSum_length.

(** although the output type is size_t, 8-bit inputs wrap at 256 *)
Theorem C61_cumulativeSum_exact_refuted : exists l, Forall (fun v => 0 <= v < 2 ^ 8) l /\ zsum l < 2 ^ 64 /\
  nth_error (cumulativeSum 8 l) (length l - 1) <> Some (zsum l).
Proof. exists [200; 100]. repeat split; try (repeat constructor; lia). vm_compute. discriminate. Qed.
Print Assumptions C61_cumulativeSum_exact_refuted.

Example C61_ex : cumulativeSum 64 [200; 100; 5] = [200; 300; 305] /\ cumulativeSum 8 [200; 100; 5] = [200; 44; 49].
Proof. split; reflexivity. Qed.
