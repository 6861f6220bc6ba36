(** C24: packed YCbCr values. *)
From Coq Require Import ZArith List Lia.
From Verif Require Import Model.Simd Spec.Simd Model.YCbCr Proofs.YCbCr.
Import ListNotations.
Open Scope Z_scope.

(** luma survives exactly, chroma is rounded down to a multiple of 16 *)
Theorem C24_unpack_pack : forall y cr cb, 0 <= y < 256 -> 0 <= cr < 256 -> 0 <= cb < 256 ->
  unpack1 (pack1 y cr cb) = (y, 16 * (cr / 16), 16 * (cb / 16)).
Proof. exact unpack_pack1. Qed.
Print Assumptions C24_unpack_pack.

Theorem C24_pack_unpack : forall p, 0 <= p < 2^16 -> let '(y, cr, cb) := unpack1 p in pack1 y cr cb = p.
Proof. exact pack_unpack1. Qed.
Print Assumptions C24_pack_unpack.

(** whatever mix of vector blocks and scalar tail is used, every pixel of a row gets its scalar value *)
Theorem C24_pack_row_is_pointwise : forall fuel y cr cb, length y = length cr -> length cr = length cb ->
  Forall byte y -> Forall byte cr -> Forall byte cb -> pack_row fuel y cr cb = zip3 y cr cb.
Proof. exact pack_row_ok. Qed.
Print Assumptions C24_pack_row_is_pointwise.

Theorem C24_unpack_row_is_pointwise : forall fuel p, Forall (fun x => 0 <= x < 2^16) p -> unpack_row fuel p = map unpack1 p.
Proof. exact unpack_row_ok. Qed.
Print Assumptions C24_unpack_row_is_pointwise.

Example C24_ex_pixel : pack1 200 123 77 = 18376 /\ unpack1 18376 = (200, 112, 64). Proof. split; reflexivity. Qed.
Example C24_ex_row : let y := map Z.of_nat (seq 100 19) in let cr := map Z.of_nat (seq 3 19) in let cb := map Z.of_nat (seq 220 19) in
  Forall byte y /\ Forall byte cr /\ Forall byte cb /\ nth 17 (pack_row 5 y cr cb) 0 = pack1 117 20 237.
Proof. vm_compute. repeat split; repeat constructor; discriminate. Qed.
