(** C34: LBSP thresholds. *)
From Coq Require Import ZArith NArith List QArith.
From Verif Require Import Model.Bits Model.Simd Model.Lbsp Spec.Bits Spec.Simd Spec.Lbsp Proofs.Lbsp.
Import ListNotations.
Open Scope Z_scope.

(** the absolute threshold saturates *)
Theorem C34_absolute : forall n, 0 <= n < 2^31 -> abs_threshold n = Z.min 255 n.
Proof. exact abs_threshold_small. Qed.
Print Assumptions C34_absolute.

Theorem C34_absolute_range : forall n, 0 <= abs_threshold n <= 255.
Proof. exact abs_threshold_range. Qed.
Print Assumptions C34_absolute_range.

(** thresholds from 2^31 up to 2^32 become zero instead of 255 *)
Theorem C34_absolute_large_refuted : forall n, 2^31 <= n < 2^32 -> abs_threshold n = 0.
Proof. exact abs_threshold_big. Qed.
Print Assumptions C34_absolute_large_refuted.

(** relative thresholds, for any monotone float rounding: always a byte, monotone in the intensity while the sum is an int *)
Theorem C34_relative_range : forall fl r f off, 0 <= rel_threshold fl r f off <= 255.
Proof. exact rel_threshold_range. Qed.
Print Assumptions C34_relative_range.

Theorem C34_relative_monotone : forall fl r1 r2 f off, rounding fl -> (0 <= f)%Q -> 0 <= r1 <= r2 -> 0 <= off ->
  (fl (fl (inject_Z r2 * f) + fl (inject_Z off)) < inject_Z (2^31) - (1 # 2))%Q ->
  rel_threshold fl r1 f off <= rel_threshold fl r2 f off.
Proof. exact rel_threshold_mono. Qed.
Print Assumptions C34_relative_monotone.

(** with exact arithmetic: nearest integer to ref*f+offset, clipped at 255 *)
Theorem C34_relative_exact : forall fl r f off, rounding fl -> (forall x, fl x == x)%Q -> (0 <= f)%Q -> 0 <= r -> 0 <= off ->
  (inject_Z r * f + inject_Z off < inject_Z (2^31) - (1 # 2))%Q ->
  exists z, nearest (inject_Z r * f + inject_Z off) z /\ rel_threshold fl r f off = Z.min 255 z.
Proof. exact rel_threshold_exact. Qed.
Print Assumptions C34_relative_exact.

(** offsets from 2^31 give threshold zero: every neighbour difference then counts *)
Theorem C34_relative_large_refuted : forall fl r f off, rounding fl -> (0 <= f)%Q -> 0 <= r -> 2^31 <= off -> rel_threshold fl r f off = 0.
Proof. exact rel_threshold_big. Qed.
Print Assumptions C34_relative_large_refuted.

Theorem C34_rounding_exists : rounding (fun x => x).
Proof. exact rounding_id. Qed.
Print Assumptions C34_rounding_exists.

Example C34_ex : rel_threshold (fun x => x) 200 (333 # 1000) 3 = 70 /\ rel_threshold (fun x => x) 255 (1 # 1) 3 = 255 /\
  rel_threshold (fun x => x) 5 (1 # 2) 0 = 2 /\ rel_threshold (fun x => x) 200 (1 # 2) (2^31) = 0 /\ abs_threshold 300 = 255 /\ abs_threshold (2^31) = 0.
Proof. vm_compute. auto 10. Qed.
