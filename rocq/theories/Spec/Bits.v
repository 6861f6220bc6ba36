(** Specifications of the bit helpers, written with powers of two and single-bit tests only. *)
From Coq Require Import NArith List Bool.
Import ListNotations.
Open Scope N_scope.

(** [p] is a power of two *)
Definition is_power_of_two (p : N) : Prop := exists k, p = 2 ^ k.

(** least power of two not below [n] *)
Definition least_pow2_above (n p : N) : Prop :=
  is_power_of_two p /\ n <= p /\ forall q, is_power_of_two q -> n <= q -> p <= q.

(** number of one bits among the [w] low bits of [x] *)
Fixpoint ones (w : nat) (x : N) : N :=
  match w with
  | O => 0
  | S w' => ones w' x + (if N.testbit x (N.of_nat w') then 1 else 0)
  end.

(** number of positions below [w] at which [a] and [b] have different bits *)
Fixpoint differing (w : nat) (a b : N) : N :=
  match w with
  | O => 0
  | S w' => differing w' a b +
            (if Bool.eqb (N.testbit a (N.of_nat w')) (N.testbit b (N.of_nat w')) then 0 else 1)
  end.

(** total over two arrays of the differing bits of corresponding words *)
Fixpoint differing_arr (w : nat) (xs ys : list N) : N :=
  match xs, ys with
  | x :: r, y :: s => differing w x y + differing_arr w r s
  | _, _ => 0
  end.
