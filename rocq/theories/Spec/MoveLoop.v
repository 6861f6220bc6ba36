(* What is asked of the schedule of moves. *)
From Coq Require Import ZArith List Bool.
Import ListNotations.
Open Scope Z_scope.

(* the numbers behind all entries, and behind every second one *)
Fixpoint sum (l : list (Z * Z)) : Z := match l with [] => 0 | (_, d) :: l => d + sum l end.
Fixpoint seconds (l : list (Z * Z)) : Z := match l with _ :: (_, d) :: l => d + seconds l | _ => 0 end.
(* the two labels in turn, from a on *)
Fixpoint in_turn (a : Z) (l : list (Z * Z)) : Prop := match l with [] => True | (b, _) :: l => b = a /\ in_turn (1 - a) l end.
(* a result of a sort: nothing behind an entry belongs before it *)
Definition sorted_by (before : Z -> Z -> bool) (l : list Z) : Prop := forall i j a b, (i < j)%nat -> nth_error l i = Some a -> nth_error l j = Some b -> before b a = false.
