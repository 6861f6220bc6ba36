(** lv::calcHistCounts, lv::calcMedianValue and the masked lv::medianBlur, modules/imgproc/src/imgproc.cpp:154-257.
    [None] is a read past the end of the histogram. *)
From Coq Require Import ZArith List Bool.
From Verif Require Import Lib.Grid.
Import ListNotations.
Open Scope Z_scope.

(** ++vCounts[v] *)
Fixpoint incr (l : list Z) (v : nat) : list Z :=
  match l, v with
  | [], _ => []
  | c :: r, O => (c + 1) :: r
  | c :: r, S k => c :: incr r k
  end.
(** imgproc.cpp:159-198: 256 bins for 8-bit, 65536 for 16-bit matrices; pixels (and mask bytes) in memory order *)
Definition nbins (depth16 : bool) : nat := if depth16 then Z.to_nat 65536 else Z.to_nat 256.
Definition hist_counts (depth16 : bool) (px : list Z) (mask : option (list Z)) : list Z * Z :=
  match mask with
  | None => (fold_left (fun c v => incr c (Z.to_nat v)) px (repeat 0 (nbins depth16)), Z.of_nat (length px))
  | Some m => fold_left (fun st p => if snd p =? 0 then st else (incr (fst st) (Z.to_nat (fst p)), snd st + 1)) (combine px m) (repeat 0 (nbins depth16), 0)
  end.
(** imgproc.cpp:210-216 *)
Fixpoint med_loop (rest : list Z) (cur half bin : Z) : option Z :=
  if cur <=? half then match rest with [] => None | c :: r => med_loop r (cur + c) half (bin + 1) end else Some bin.
Definition calc_median (depth16 : bool) (px : list Z) (mask : option (list Z)) : option Z :=
  let '(counts, n) := hist_counts depth16 px mask in
  match counts with [] => None | c0 :: r => med_loop r c0 (Z.quot n 2) 0 end.

(** imgproc.cpp:230-257: values gathered in the window clipped to the image; [nthel] stands for std::nth_element (whose result is only
    constrained by its contract); the buffer has room for kernel*kernel values *)
Definition window (rows cols off y x : Z) : list (Z * Z) :=
  let y0 := Z.max (y - off) 0 in let y1 := Z.min (y + off) (rows - 1) in
  let x0 := Z.max (x - off) 0 in let x1 := Z.min (x + off) (cols - 1) in
  grid y0 (y1 - y0 + 1) x0 (x1 - x0 + 1).
Definition blur_vals (f m : Z -> Z -> Z) (rows cols off y x : Z) : list Z :=
  map (fun p => f (fst p) (snd p)) (filter (fun p => negb (m (fst p) (snd p) =? 0)) (window rows cols off y x)).
Definition median_blur (nthel : list Z -> nat -> list Z) (f m : Z -> Z -> Z) (rows cols ksize def y x : Z) : Z :=
  let vals := blur_vals f m rows cols (Z.quot ksize 2) y x in
  let hits := Z.of_nat (length vals) in
  if 0 <? hits then nth (Z.to_nat (Z.quot (hits - 1) 2)) (nthel vals (Z.to_nat (Z.quot (hits - 1) 2))) 0 else def.
