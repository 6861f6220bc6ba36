(** The number written in a name, the order in which files are listed, and the last value saved. *)
From Coq Require Import ZArith List Bool Arith.
From Verif Require Import Model.Strings.
Import ListNotations.

Definition size_t (n : Z) : Prop := (0 <= n < 2 ^ 64)%Z.
(** the value of a string of decimal digits *)
Definition value (s : str) : Z := fold_left (fun a c => (10 * a + (Z.of_nat c - 48))%Z) s 0%Z.
(** the order of std::string, in which directories are listed *)
Fixpoint before (a b : str) : Prop :=
  match a, b with
  | _, [] => False
  | [], _ :: _ => True
  | x :: a, y :: b => x < y \/ (x = y /\ before a b)
  end.
(** the last value saved at an index *)
Fixpoint last_saved {V} (l : list (Z * V)) (i : Z) : option V :=
  match l with [] => None | (j, v) :: r => match last_saved r i with Some w => Some w | None => if (i =? j)%Z then Some v else None end end.
