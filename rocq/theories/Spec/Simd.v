(** Scalar meaning of 16-byte registers. *)
From Coq Require Import ZArith List.
Import ListNotations.
Open Scope Z_scope.
Definition byte (b : Z) : Prop := 0 <= b < 256.
Definition register (r : list Z) : Prop := length r = 16%nat /\ Forall byte r.
(** the i-th 32-bit little-endian word *)
Definition word (r : list Z) (i : nat) : Z :=
  let b k := nth (4 * i + k)%nat r 0 in b 0%nat + 2^8 * b 1%nat + 2^16 * b 2%nat + 2^24 * b 3%nat.
(** two's complement reading of 32 bits: the representative in [-2^31,2^31) *)
Definition is_int32_of (z w : Z) : Prop := -(2^31) <= z < 2^31 /\ (z - w) mod 2^32 = 0.
Definition sum (l : list Z) : Z := fold_right Z.add 0 l.
