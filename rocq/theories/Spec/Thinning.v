(** Zhang-Suen removal conditions in terms of the circle of eight neighbours, independent of the model. *)
From Coq Require Import ZArith List.
Import ListNotations.
Open Scope Z_scope.

(** neighbours in clockwise order starting north, index taken modulo 8 *)
Definition dir (k : Z) : Z * Z :=
  match k mod 8 with
  | 0 => (-1, 0) | 1 => (-1, 1) | 2 => (0, 1) | 3 => (1, 1) | 4 => (1, 0) | 5 => (1, -1) | 6 => (0, -1) | _ => (-1, -1)
  end.
Definition nb (f : Z -> Z -> Z) (y x k : Z) : Z := f (y + fst (dir k)) (x + snd (dir k)).
Definition fg (v : Z) : Prop := v <> 0.
Definition rising (f : Z -> Z -> Z) (y x k : Z) : Prop := ~ fg (nb f y x k) /\ fg (nb f y x (k + 1)).
Definition one_rising (f : Z -> Z -> Z) (y x : Z) : Prop :=
  exists k, 0 <= k < 8 /\ rising f y x k /\ forall k', 0 <= k' < 8 -> rising f y x k' -> k' = k.
(** S lists, without repetition, the directions of the foreground neighbours *)
Definition fg_dirs (f : Z -> Z -> Z) (y x : Z) (S : list Z) : Prop :=
  NoDup S /\ forall k, In k S <-> 0 <= k < 8 /\ fg (nb f y x k).
Definition degree_ok (f : Z -> Z -> Z) (y x : Z) : Prop := exists S, fg_dirs f y x S /\ 2 <= Z.of_nat (length S) <= 6.
Definition some_bg (f : Z -> Z -> Z) (y x : Z) (ks : list Z) : Prop := exists k, In k ks /\ ~ fg (nb f y x k).
(** directions: 0 north, 2 east, 4 south, 6 west *)
Definition removable (second : bool) (f : Z -> Z -> Z) (y x : Z) : Prop :=
  one_rising f y x /\ degree_ok f y x /\
  (if second then some_bg f y x [0; 2; 6] /\ some_bg f y x [0; 4; 6] else some_bg f y x [0; 2; 4] /\ some_bg f y x [2; 4; 6]).

Definition inner (rows cols y x : Z) : Prop := 1 <= y < rows - 1 /\ 1 <= x < cols - 1.
Definition inside (rows cols y x : Z) : Prop := 0 <= y < rows /\ 0 <= x < cols.
Definition agree (rows cols : Z) (f g : Z -> Z -> Z) : Prop := forall y x, inside rows cols y x -> f y x = g y x.
Definition same_shape (rows cols : Z) (f g : Z -> Z -> Z) : Prop := forall y x, inside rows cols y x -> (f y x = 0 <-> g y x = 0).
