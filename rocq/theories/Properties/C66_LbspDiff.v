(** C66: LBSP difference images. *)
From Coq Require Import ZArith NArith List QArith.
From Verif Require Import Model.Bits Model.Simd Model.Lbsp Spec.Bits Spec.Simd Spec.Lbsp Proofs.Lbsp.
Import ListNotations.
Open Scope Z_scope.

(** each pixel is the Hamming distance of the descriptors rescaled to 0..255 *)
Theorem C66_difference : forall a b, exists h, differing 16 a b = h /\ img_diff a b = Some (255 * Z.of_N h / 16) /\ 0 <= 255 * Z.of_N h / 16 <= 255.
Proof. exact img_diff_ok. Qed.
Print Assumptions C66_difference.

(** merging three channels adds the thirds and never wraps *)
Theorem C66_merged : forall a0 a1 a2 b0 b1 b2,
  img_diff_merged [a0; a1; a2] [b0; b1; b2] =
    Some (255 * Z.of_N (differing 16 a0 b0) / 48 + 255 * Z.of_N (differing 16 a1 b1) / 48 + 255 * Z.of_N (differing 16 a2 b2) / 48) /\
  255 * Z.of_N (differing 16 a0 b0) / 48 + 255 * Z.of_N (differing 16 a1 b1) / 48 + 255 * Z.of_N (differing 16 a2 b2) / 48 <= 255.
Proof. exact img_diff_merged_ok. Qed.
Print Assumptions C66_merged.

Example C66_ex : img_diff 0 65535 = Some 255 /\ img_diff 5 4 = Some 15 /\ img_diff_merged [0; 1; 65535]%N [65535; 0; 0]%N = Some 175.
Proof. vm_compute. auto. Qed.
