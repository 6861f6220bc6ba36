From Coq Require Import ZArith List.
Import ListNotations.
Open Scope Z_scope.
(** inside the image with the given margin *)
Definition inside (p : Z * Z) (border : Z) (sz : Z * Z) : Prop :=
  border <= fst p <= fst sz - border - 1 /\ border <= snd p <= snd sz - border - 1.
Definition room (border : Z) (sz : Z * Z) : Prop := 0 <= border /\ 2 * border < fst sz /\ 2 * border < snd sz.
(** how many of the values 0..n-1 satisfy f *)
Definition how_many (n : nat) (f : Z -> bool) : nat := length (filter f (map Z.of_nat (seq 0 n))).
Definition same (p q : Z * Z) : bool := (fst p =? fst q) && (snd p =? snd q).
(** kernel as a table of non-negative weights of H rows of W columns *)
Definition kernel (K : list (list Z)) (W H : nat) : Prop :=
  length K = H /\ Forall (fun l => length l = W /\ Forall (fun w => 0 <= w) l) K.
Definition total (K : list (list Z)) : Z := fold_right Z.add 0 (concat K).
Definition weight (K : list (list Z)) (i j : nat) : Z := nth i (nth j K []) 0.
(** largest coordinate difference *)
Definition cheb (p q : Z * Z) : Z := Z.max (Z.abs (fst p - fst q)) (Z.abs (snd p - snd q)).
