(** Window statistics by direct counting over the whole image. *)
From Coq Require Import ZArith List Bool.
From Verif Require Import Lib.Grid.
Import ListNotations.
Open Scope Z_scope.

Definition within (off y x : Z) (p : Z * Z) : bool := (Z.abs (fst p - y) <=? off) && (Z.abs (snd p - x) <=? off).
(** pixels of the image within the kernel that satisfy q *)
Definition hits (rows cols off y x : Z) (q : Z -> Z -> bool) : Z :=
  count (fun p => within off y x p && q (fst p) (snd p)) (grid 0 rows 0 cols).
Definition nz (f : Z -> Z -> Z) : Z -> Z -> bool := fun a b => negb (f a b =? 0).
(** sum of a matrix given as a list of rows, restricted to the first y rows and x columns *)
Definition sum_list (l : list Z) : Z := fold_right Z.add 0 l.
Definition block_sum (m : list (list Z)) (y x : nat) : Z := sum_list (map (fun r => sum_list (firstn x r)) (firstn y m)).
Definition byte_matrix (cols : nat) (m : list (list Z)) : Prop := forall r, In r m -> length r = cols /\ forall v, In v r -> 0 <= v < 256.
