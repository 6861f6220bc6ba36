(** Specification of LBSP descriptors. *)
From Coq Require Import ZArith NArith List QArith.
Import ListNotations.
Open Scope Z_scope.

(** bit n of the descriptor tells whether neighbour n is farther from the reference than the threshold; no other bit *)
Definition is_descriptor (vals : list Z) (ref thr d : Z) : Prop :=
  0 <= d < 2^16 /\ forall n v, nth_error vals n = Some v -> (Z.testbit d (Z.of_nat n) = true <-> thr < Z.abs (v - ref)).

(** the 16 pixels of the pattern, as drawn in LBSP.hpp:276-280 (column, row offsets) *)
Definition pattern : list (Z * Z) :=
  [(-2,0); (2,0); (0,-2); (0,2); (-2,2); (2,-2); (2,2); (-2,-2); (0,1); (-1,0); (0,-1); (1,0); (-1,-1); (1,1); (1,-1); (-1,1)].

(** signed count over the pattern of the neighbours whose bit is set *)
Fixpoint weighted (w : Z * Z -> Z) (p : list (Z * Z)) (n : nat) (d : N) : Z :=
  match p with [] => 0 | o :: r => (if N.testbit d (N.of_nat n) then w o else 0) + weighted w r (S n) d end.

(** +1 for neighbours on the left, -1 on the right; +1 for neighbours below, -1 above *)
Definition leftward (o : Z * Z) : Z := - Z.sgn (fst o).
Definition downward (o : Z * Z) : Z := Z.sgn (snd o).

(** what float rounding guarantees and all that is used of it *)
Record rounding (fl : Q -> Q) : Prop := {
  fl_mono : forall x y, (x <= y)%Q -> (fl x <= fl y)%Q;
  fl_int : forall k, (Z.abs k <= 2^24)%Z -> (fl (inject_Z k) == inject_Z k)%Q;
  fl_pow : forall e, (0 <= e <= 64)%Z -> (fl (inject_Z (2 ^ e)) == inject_Z (2 ^ e))%Q }.

(** z is x rounded to a nearest integer *)
Definition nearest (x : Q) (z : Z) : Prop := (inject_Z z - (1 # 2) <= x <= inject_Z z + (1 # 2))%Q.
