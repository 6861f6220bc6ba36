(** lv::nonMaxSuppression and lv::isLocalMaximum_*, modules/imgproc/include/litiv/imgproc.hpp:120-208. *)
From Coq Require Import ZArith List Bool.
From Verif Require Import Lib.Grid.
Import ListNotations.
Open Scope Z_scope.

Section Nms.
Variables (f : Z -> Z -> Z) (sel : Z * Z -> bool) (M N W : Z).
(** location of a maximum as found by cv::minMaxLoc (an external function) among a non-empty list of pixels *)
Variable pick : list (Z * Z) -> Z * Z.
Definition at_ (p : Z * Z) : Z := f (fst p) (snd p).
(** cv::minMaxLoc with nothing selected yields value 0 and location (-1,-1) *)
Definition max_val (l : list (Z * Z)) : Z := match l with [] => 0 | _ => at_ (pick l) end.
Definition max_loc (m n : Z) (l : list (Z * Z)) : Z * Z := match l with [] => (m - 1, n - 1) | _ => pick l end.
(** imgproc.hpp:138-139 *)
Definition block (m n : Z) : list (Z * Z) := grid m (Z.min (m + W + 1) M - m) n (Z.min (n + W + 1) N - n).
(** 143-144 *)
Definition lo (c : Z) : Z := Z.max (c - W) 0.
Definition hi (c size : Z) : Z := Z.min (c + W + 1) size.
(** 145-150: rows/columns of the window zeroed in the block mask, in window coordinates *)
Definition blanked (m n : Z) (c p : Z * Z) : bool :=
  let i0 := lo (fst c) in let j0 := lo (snd c) in let ih := hi (fst c) M - i0 in let jw := hi (snd c) N - j0 in
  (m - i0 <=? fst p - i0) && (fst p - i0 <? Z.min (m - i0 + W + 1) ih) && ((n - j0 <=? snd p - j0) && (snd p - j0 <? Z.min (n - j0 + W + 1) jw)).
Definition around (m n : Z) (c : Z * Z) : list (Z * Z) :=
  filter (fun p => sel p && negb (blanked m n c p)) (grid (lo (fst c)) (hi (fst c) M - lo (fst c)) (lo (snd c)) (hi (snd c) N - lo (snd c))).
(** 135-155: one block; None is a write outside the output *)
Definition nms_block (m n : Z) : option (list (Z * Z)) :=
  let cells := filter sel (block m n) in
  let vc := max_val cells in let cc := max_loc m n cells in
  let vn := max_val (around m n cc) in
  if vn <? vc then
    (if (0 <=? fst cc) && (fst cc <? M) && ((0 <=? snd cc) && (snd cc <? N)) then Some [cc] else None)
  else Some [].
(** 133-134: for(m=0; m<M; m+=W+1) *)
Definition starts (size : Z) : list Z := map (fun k => k * (W + 1)) (zrange 0 ((size + W) / (W + 1))).
Definition nms : option (list (Z * Z)) :=
  fold_left (fun acc b => match acc, nms_block (fst b) (snd b) with Some a, Some c => Some (a ++ c) | _, _ => None end) (list_prod (starts M) (starts N)) (Some []).
End Nms.

(** ** isLocalMaximum_*: the element index is an int converted to size_t and multiplied by a size_t step, modulo 2^64; addresses wrap likewise *)
Definition u64 (v : Z) : Z := v mod 18446744073709551616.
Definition elem_addr (base sz idx : Z) : Z := u64 (base + u64 (sz * idx)).
(** imgproc.hpp:160-171 and 174-185 (same code, other step) *)
Definition locmax_line (mem : Z -> Z) (base sz step : Z) (H : nat) : bool :=
  forallb (fun n => mem (elem_addr base sz (u64 (u64 (- Z.of_nat n - 1) * step))) <? mem base) (seq 0 H) &&
  forallb (fun n => mem (elem_addr base sz (u64 (u64 (Z.of_nat n + 1) * step))) <=? mem base) (seq 0 H).
(** imgproc.hpp:188-199 *)
Definition locmax_diag (inv : bool) (mem : Z -> Z) (base sz cstep rstep : Z) (H : nat) : bool :=
  let s := if inv then -1 else 1 in
  forallb (fun n => mem (elem_addr base sz (u64 (u64 (u64 (s * (- Z.of_nat n - 1)) * cstep) + u64 (u64 (- Z.of_nat n - 1) * rstep)))) <? mem base) (seq 0 H) &&
  forallb (fun n => mem (elem_addr base sz (u64 (u64 (u64 (s * (Z.of_nat n + 1)) * cstep) + u64 (u64 (Z.of_nat n + 1) * rstep)))) <=? mem base) (seq 0 H).
