(** Sample and neighbour coordinates, modules/utils/include/litiv/utils/opencv.hpp.
    Coordinates are mathematical integers: the sums formed stay within a few units of the origin coordinates, so int overflow is
    only possible for origins within 4 of INT_MIN/INT_MAX, which is not modelled. *)
From Coq Require Import ZArith List.
Import ListNotations.
Open Scope Z_scope.

(** opencv.hpp:859-870 (one coordinate; X and Y are treated alike) *)
Definition clamp1 (v border size : Z) : Z :=
  if v <? border then border else if size - border <=? v then size - border - 1 else v.
Definition clampImageCoords (p : Z * Z) (border : Z) (sz : Z * Z) : Z * Z :=
  (clamp1 (fst p) border (fst sz), clamp1 (snd p) border (snd sz)).

(** opencv.hpp:880-887: the two loops and the goto. [inr] is the goto, [inl] falling out of the loop with the remaining r. *)
Fixpoint scan_row (l : list Z) (r : Z) (x : nat) : Z + nat :=
  match l with
  | [] => inl r
  | w :: l' => let r' := r - w in if r' <=? 0 then inr x else scan_row l' r' (S x)
  end.
Fixpoint scan (K : list (list Z)) (W : nat) (r : Z) (y : nat) : nat * nat :=
  match K with
  | [] => (W, y)
  | l :: K' => match scan_row l r 0 with inr x => (x, y) | inl r' => scan K' W r' (S y) end
  end.
(** opencv.hpp:873-891; W, H are the template parameters *)
Definition getSamplePosition (K : list (list Z)) (W H : nat) (tot rnd : Z) (o : Z * Z) (border : Z) (sz : Z * Z) : Z * Z :=
  let r := 1 + Z.rem rnd tot in
  let '(x, y) := scan K W r 0 in
  clampImageCoords (Z.of_nat x + (fst o - Z.of_nat W / 2), Z.of_nat y + (snd o - Z.of_nat H / 2)) border sz.
(** opencv.hpp:894-906 *)
Definition K3 : list (list Z) := [[19;32;19];[32;52;32];[19;32;19]].
Definition getSamplePosition_3x3_std1 := getSamplePosition K3 3 3 256.
(** opencv.hpp:909-925 *)
Definition K7 : list (list Z) :=
  [[2;4;6;7;6;4;2];[4;8;12;14;12;8;4];[6;12;21;25;21;12;6];[7;14;25;28;25;14;7];[6;12;21;25;21;12;6];[4;8;12;14;12;8;4];[2;4;6;7;6;4;2]].
Definition getSamplePosition_7x7_std2 := getSamplePosition K7 7 7 512.

(** opencv.hpp:928-938; indexing the pattern with a negative remainder is undefined: None *)
Definition getNeighborPosition (pat : list (Z * Z)) (rnd : Z) (o : Z * Z) (border : Z) (sz : Z * Z) : option (Z * Z) :=
  let r := Z.rem rnd (Z.of_nat (length pat)) in
  if r <? 0 then None else
  match nth_error pat (Z.to_nat r) with
  | Some d => Some (clampImageCoords (fst o + fst d, snd o + snd d) border sz)
  | None => None
  end.
(** opencv.hpp:941-951 *)
Definition N8 : list (Z * Z) := [(-1,1);(0,1);(1,1);(-1,0);(1,0);(-1,-1);(0,-1);(1,-1)].
Definition getNeighborPosition_3x3 := getNeighborPosition N8.
(** opencv.hpp:954-966 *)
Definition N24 : list (Z * Z) :=
  [(-2,2);(-1,2);(0,2);(1,2);(2,2);(-2,1);(-1,1);(0,1);(1,1);(2,1);(-2,0);(-1,0);(1,0);(2,0);
   (-2,-1);(-1,-1);(0,-1);(1,-1);(2,-1);(-2,-2);(-1,-2);(0,-2);(1,-2);(2,-2)].
Definition getNeighborPosition_5x5 := getNeighborPosition N24.
