(* Sums over ranges, and which block sizes are good for halving. *)
From Coq Require Import ZArith Reals List Bool.
Import ListNotations.

Fixpoint big (n : nat) (f : nat -> R) : R := match n with O => 0%R | S k => (big k f + f k)%R end.
(* halving n (rounding down) until 0 and adding cell i + s to cell i at each half s: does number i get to cell 0? *)
Fixpoint reached (fuel n i : nat) : bool :=
  match fuel with
  | O => i =? 0
  | S f => let s := n / 2 in if s =? 0 then i =? 0 else reached f s i || ((s <=? i) && reached f s (i - s))
  end.
Definition added (n i : nat) : bool := reached n n (i mod n).
(* no remainder 2 *)
Definition two_thirds (i : nat) : bool := negb (i mod 3 =? 2).
(* the place of the pixel q in the patch of size p around (r, c), row by row *)
Definition slot (p : nat) (r c : Z) (q : Z * Z) : nat := Z.to_nat ((fst q - r + Z.of_nat p / 2) * Z.of_nat p + (snd q - c + Z.of_nat p / 2)).
