(** C32: LBSP thresholding. *)
From Coq Require Import ZArith NArith List QArith.
From Verif Require Import Model.Bits Model.Simd Model.Lbsp Spec.Bits Spec.Simd Spec.Lbsp Proofs.Lbsp.
Import ListNotations.
Open Scope Z_scope.

(** the scalar path sets bit n iff neighbour n differs from the reference by more than the threshold *)
Theorem C32_scalar : forall vals ref thr, register vals -> byte ref -> exists d, thr_scalar vals ref thr = Some d /\ is_descriptor vals ref thr d.
Proof. exact thr_scalar_ok. Qed.
Print Assumptions C32_scalar.

Theorem C32_sse41 : forall vals ref thr, register vals -> byte ref -> byte thr -> is_descriptor vals ref thr (thr_sse41 vals ref thr).
Proof. exact thr_sse41_ok. Qed.
Print Assumptions C32_sse41.

Theorem C32_sse2 : forall vals ref thr, register vals -> byte ref -> byte thr -> is_descriptor vals ref thr (thr_sse2 vals ref thr).
Proof. exact thr_sse2_ok. Qed.
Print Assumptions C32_sse2.

(** all builds compute the same descriptor *)
Theorem C32_paths_agree : forall vals ref thr, register vals -> byte ref -> byte thr ->
  thr_scalar vals ref thr = Some (thr_sse41 vals ref thr) /\ thr_sse2 vals ref thr = thr_sse41 vals ref thr.
Proof. exact thr_paths_agree. Qed.
Print Assumptions C32_paths_agree.

(** the specification determines the descriptor *)
Theorem C32_descriptor_unique : forall vals ref thr d d', length vals = 16%nat ->
  is_descriptor vals ref thr d -> is_descriptor vals ref thr d' -> d = d'.
Proof. exact descriptor_unique. Qed.
Print Assumptions C32_descriptor_unique.

Example C32_ex : let vals := [0; 255; 128; 100; 131; 99; 132; 1; 2; 3; 4; 200; 150; 101; 70; 69] in
  register vals /\ thr_scalar vals 100 31 = Some 8131 /\ thr_sse2 vals 100 31 = 8131 /\ thr_sse41 vals 100 31 = 8131.
Proof.
  split; [ split; [ reflexivity | repeat (constructor; [ unfold byte; split; [ discriminate | reflexivity ] |]); constructor ] |].
  vm_compute. auto.
Qed.
