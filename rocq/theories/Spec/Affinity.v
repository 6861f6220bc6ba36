(* Which pixels of two images can be matched, and averages over patches. *)
From Coq Require Import ZArith Reals List Bool.
From Verif Require Import Lib.Grid.
Import ListNotations.
Open Scope Z_scope.

(* (r, c) of the first image and (r, c + d) of the second are both there and wanted, at least margin away from the left and right borders *)
Definition matchable (cols margin : Z) (in1 in2 : Z -> Z -> bool) (d r c : Z) : bool :=
  in1 r c && (margin <=? c + d) && (c + d <? cols - margin) && in2 r (c + d).
Definition wanted (m : option (Z -> Z -> bool)) (r c : Z) : bool := match m with None => true | Some f => f r c end.
Definition sum {A} (f : A -> R) (l : list A) : R := fold_right (fun x s => (f x + s)%R) 0%R l.
Definition average {A} (f : A -> R) (l : list A) : R := (sum f l / INR (length l))%R.
(* the pixels around (r, c) that can be matched with the displacement d *)
Definition supporters (rows cols rad : Z) (in1 in2 : Z -> Z -> bool) (d r c : Z) : list (Z * Z) :=
  filter (fun p => (Z.abs (fst p - r) <=? rad) && (Z.abs (snd p - c) <=? rad) && matchable cols 0 in1 in2 d (fst p) (snd p)) (grid 0 rows 0 cols).
