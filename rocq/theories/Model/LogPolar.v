(** lv::getLogPolarMask, modules/utils/src/opencv.cpp:33-115. The transcendental parts are parameters: the rounded angle in degrees
    and the radial bin of an offset (Chatfield), the unreduced angular index and the radial bin (Lienhart); everything done with them
    afterwards is modelled. None stands for the initial value -1. *)
From Coq Require Import ZArith List Bool.
From Verif Require Import Lib.Grid.
Import ListNotations.
Open Scope Z_scope.

Inductive mask_result := Mask (entries : list (option Z)) (first last : Z) | MaskThrows | MaskUB.

(** opencv.cpp:72,86: bin index; integer arithmetic of C (operands non-negative) *)
Definition entry (nR ang rad : Z) : Z := ang * (nR - 0) + ((nR - 0 - 1) - (rad - 0)).
(** opencv.cpp:44-49,63-66: running first/last raster index of a written entry *)
Definition step_first (st : Z * Z * Z) (e : option Z) : Z * Z * Z :=
  let '(idx, f, l) := st in match e with None => (idx + 1, f, l) | Some _ => (idx + 1, Z.min f idx, Z.max l idx) end.
Definition first_last (n : Z) (es : list (option Z)) : Z * Z :=
  let '(_, f, l) := fold_left step_first es (0, n * n - 1, 0) in (f, l).

(** opencv.cpp:76-96 Chatfield: deg row col = (int)round(angle in [0,360)), rad row col = the truncated log-distance bin *)
Definition chatfield_entry (deg rad : Z -> Z -> Z) (nR nA : Z) (row col : Z) : option Z :=
  if (row =? 0) && (col =? 0) then None else
  let r := rad row col in
  if (0 <=? r) && (r <? nR) then
    let bs := 360 / nA in Some (entry nR (((deg row col + bs / 2) mod 360) / bs) r)
  else None.
Definition chatfield (deg rad : Z -> Z -> Z) (n nR nA : Z) : mask_result :=
  if negb ((0 <? n) && (n mod 2 =? 1) && ((0 <? nR) && (0 <? nA))) then MaskThrows else
  let h := n / 2 in
  if (h =? 1) then MaskUB (* log10(1) = 0: the scale is infinite and the bin a conversion of NaN or infinity to int *) else
  if (360 / nA =? 0) && existsb (fun p => negb ((fst p =? 0) && (snd p =? 0)) && (0 <=? rad (fst p) (snd p)) && (rad (fst p) (snd p) <? nR)) (grid (- h) n (- h) n)
  then MaskUB (* division by zero *) else
  let es := map (fun p => chatfield_entry deg rad nR nA (fst p) (snd p)) (grid (- h) n (- h) n) in
  let '(f, l) := first_last n es in Mask es f l.

(** opencv.cpp:50-74 Lienhart: raw row col = int(angle*nA/2pi), rad row col = first radial bin whose limit is not exceeded (nR if none) *)
Definition lienhart_entry (raw rad : Z -> Z -> Z) (nR nA c row col : Z) : option Z :=
  if (row =? c) && (col =? c) then None else
  let r := rad row col in
  if (0 <=? r) && (r <? nR) then Some (entry nR (Z.rem (raw row col) nA) r) else None.
Definition lienhart (raw rad : Z -> Z -> Z) (n nR nA : Z) : mask_result :=
  if negb ((0 <? n) && (n mod 2 =? 1) && ((0 <? nR) && (0 <? nA))) then MaskThrows else
  let es := map (fun p => lienhart_entry raw rad nR nA ((n - 1) / 2) (fst p) (snd p)) (grid 0 n 0 n) in
  let '(f, l) := first_last n es in Mask es f l.
(** opencv.cpp:53-56,60-63: radial search over the limits; a NaN limit (None) never satisfies the comparison *)
Fixpoint rad_search (le : Z -> bool) (nan : bool) (k : nat) (i : Z) : Z :=
  match k with O => i | S k' => if negb nan && le i then i else rad_search le nan k' (i + 1) end.
(** with a single radial bin the limit is (1-1)/(1-1)*c, a NaN *)
Definition lienhart_rad (le : Z -> Z -> Z -> bool) (nR row col : Z) : Z := rad_search (le row col) (nR =? 1) (Z.to_nat nR) 0.
