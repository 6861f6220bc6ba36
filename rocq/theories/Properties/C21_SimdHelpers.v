(** C21: the SSE helpers compute their scalar meaning for every register value. *)
From Coq Require Import ZArith List Lia.
From Verif Require Import Model.Simd Spec.Simd Proofs.Simd.
Import ListNotations.
Open Scope Z_scope.

Theorem C21_comparisons : forall r s, register r -> register s ->
  (cmp_zero_sse41 r = true <-> Forall (fun x => x = 0) r) /\ (cmp_zero_sse2 r = true <-> Forall (fun x => x = 0) r) /\
  (cmp_eq_sse41 r s = true <-> r = s) /\ (cmp_eq_sse2 r s = true <-> r = s).
Proof.
  exact (fun r s Hr Hs => conj (cmp_zero_sse41_ok r Hr) (conj (cmp_zero_sse2_ok r Hr) (conj (cmp_eq_sse41_ok r s Hr Hs) (cmp_eq_sse2_ok r s Hr Hs)))).
Qed.
Print Assumptions C21_comparisons.

Theorem C21_horizontal_sums : forall r, register r ->
  hsum_8ui r = sum r /\ is_int32_of (hsum_32i r) (word r 0 + word r 1 + word r 2 + word r 3).
Proof. exact (fun r H => conj (hsum_8ui_ok r H) (hsum_32i_ok r H)). Qed.
Print Assumptions C21_horizontal_sums.

Theorem C21_horizontal_extrema_8ui : forall r, register r ->
  (In (hmin_8ui r) r /\ Forall (fun x => hmin_8ui r <= x) r) /\ (In (hmax_8ui r) r /\ Forall (fun x => x <= hmax_8ui r) r).
Proof. exact (fun r H => conj (hmin_8ui_ok r H) (hmax_8ui_ok r H)). Qed.
Print Assumptions C21_horizontal_extrema_8ui.

(** the largest of the four signed words *)
Theorem C21_hmax_32si : forall r v, register r -> (forall i, (i < 4)%nat -> is_int32_of (v i) (word r i)) ->
  (exists i, (i < 4)%nat /\ hmax_32si r = v i) /\ (forall i, (i < 4)%nat -> v i <= hmax_32si r).
Proof. exact hmax_32si_spec. Qed.
Print Assumptions C21_hmax_32si.

(** every byte product modulo 256, every word product modulo 2^32, the same with and without SSE4.1 *)
Theorem C21_products : forall r s, register r -> register s ->
  (forall i, (i < 16)%nat -> nth i (mult_8i r s) 0 = (nth i r 0 * nth i s 0) mod 256) /\
  (forall i, (i < 4)%nat -> word (mult_32si_sse41 r s) i = (word r i * word s i) mod 2^32) /\
  mult_32si_sse2 r s = mult_32si_sse41 r s.
Proof. exact products_spec. Qed.
Print Assumptions C21_products.

Theorem C21_unpack : forall low r i, register r -> (i < 8)%nat ->
  let u := unpack_8ui_to_16ui low r in nth (2 * i) u 0 = nth (if low then i else 8 + i)%nat r 0 /\ nth (2 * i + 1) u 0 = 0.
Proof. exact unpack_spec. Qed.
Print Assumptions C21_unpack.

Theorem C21_extract_sse41 : forall r i, register r -> (i < 4)%nat -> is_int32_of (extract_32si_sse41 r i) (word r i).
Proof. exact extract_sse41_ok. Qed.
Print Assumptions C21_extract_sse41.

(** without SSE4.1, operator precedence makes the extraction wrong exactly when the low half of the word is non-zero *)
Theorem C21_extract_sse2_iff : forall r i, register r -> (i < 4)%nat ->
  (extract_32si_sse2 r i = extract_32si_sse41 r i <-> word r i mod 2^16 = 0).
Proof. exact extract_sse2_iff. Qed.
Print Assumptions C21_extract_sse2_iff.

Theorem C21_extract_sse2_refuted : exists r, register r /\ ~ is_int32_of (extract_32si_sse2 r 0) (word r 0).
Proof. exact extract_sse2_refuted. Qed.
Print Assumptions C21_extract_sse2_refuted.

Definition C21_r : list Z := [250; 3; 200; 7; 9; 255; 0; 128; 1; 2; 3; 4; 255; 255; 255; 255].
Example C21_ex_register : register C21_r. Proof. split; [ reflexivity | repeat constructor; unfold byte; lia ]. Qed.
Example C21_ex_values : hsum_8ui C21_r = 1882 /\ hmin_8ui C21_r = 0 /\ hmax_8ui C21_r = 255 /\ hmax_32si C21_r = 130548730.
Proof. vm_compute. repeat split. Qed.
Example C21_ex_mult : nth 5 (mult_8i C21_r C21_r) 0 = 1 /\ mult_32si_sse2 C21_r C21_r = mult_32si_sse41 C21_r C21_r. Proof. vm_compute. split; reflexivity. Qed.
