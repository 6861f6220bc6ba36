(** C62: digit_count. *)
From Coq Require Import ZArith Lia.
From Verif Require Import Model.Vectors Spec.Vectors Proofs.Vectors.
Open Scope Z_scope.

Theorem C62_digit_count_int : forall n, - 2 ^ 31 < n < 2 ^ 31 ->
  exists e, digit_count n = Ret (if n <? 0 then e + 1 else e) /\ decimal_digits (Z.abs n) e.
Proof. exact digit_count_spec. Qed.
Print Assumptions C62_digit_count_int.

(** beyond int the count is wrong (only the low 32 bits are tested) and INT_MIN is undefined *)
Theorem C62_digit_count_64bit_refuted : digit_count (2 ^ 32) = Ret 1 /\ digit_count (- 2 ^ 31) = Undef.
Proof. split; reflexivity. Qed.
Print Assumptions C62_digit_count_64bit_refuted.

Example C62_ex : digit_count 1234 = Ret 4 /\ digit_count (-10) = Ret 3 /\ decimal_digits 1234 4.
Proof. repeat split; try reflexivity; unfold decimal_digits; try lia. Qed.
