(** lv::integral (NEON path), lv::binaryIntegral, lv::binaryMedianBlur and lv::binaryConsensus,
    modules/imgproc/src/imgproc.cpp:259-360 and 610-698. Images are functions of (row, column). *)
From Coq Require Import ZArith List Bool.
From Verif Require Import Lib.Grid.
Import ListNotations.
Open Scope Z_scope.

Definition zsum (f : Z -> Z) (a n : Z) : Z := fold_right Z.add 0 (map f (zrange a n)).
(** imgproc.cpp:661: contract of cv::integral, an external function: entry (y,x) is the sum of the pixels above and to the left *)
Definition cv_integral (f : Z -> Z -> Z) : Z -> Z -> Z := fun y x => zsum (fun i => zsum (f i) 0 x) 0 y.
(** imgproc.cpp:677-698 *)
Definition binary_input (force : bool) (f : Z -> Z -> Z) (mask : option (Z -> Z -> Z)) : Z -> Z -> Z := fun y x =>
  let v := if force then (if f y x =? 0 then 0 else 1) else f y x in
  match mask with None => v | Some m => if m y x =? 0 then 0 else v end.
Definition binary_integral (force : bool) (f : Z -> Z -> Z) (mask : option (Z -> Z -> Z)) : Z -> Z -> Z := cv_integral (binary_input force f mask).

Definition tl (c off : Z) : Z := Z.max (c - off) 0.
Definition br (c off n : Z) : Z := Z.min (c + off) (n - 1) + 1.
(** imgproc.cpp:281-287, 349-355 *)
Definition box_hits (I : Z -> Z -> Z) (rows cols off y x : Z) : Z :=
  let p0 := I (tl y off) (tl x off) in let p1 := I (tl y off) (br x off cols) in
  let p2 := I (br y off rows) (tl x off) in let p3 := I (br y off rows) (br x off cols) in p3 - p2 - p1 + p0.
(** imgproc.cpp:268-291: no mask *)
Definition bin_median (force : bool) (f : Z -> Z -> Z) (rows cols ksize y x : Z) : Z :=
  let off := Z.quot ksize 2 in
  let pos := box_hits (binary_integral force f None) rows cols off y x in
  let hits := (br x off cols - tl x off) * (br y off rows - tl y off) in
  if Z.quot hits 2 <? pos then 255 else 0.
(** imgproc.cpp:293-318: mask *)
Definition bin_median_masked (f m : Z -> Z -> Z) (rows cols ksize def y x : Z) : Z :=
  let off := Z.quot ksize 2 in
  let w := grid (tl y off) (br y off rows - tl y off) (tl x off) (br x off cols - tl x off) in
  let '(hits, pos) := fold_left (fun st p => if m (fst p) (snd p) =? 0 then st else
                                  (fst st + 1, if f (fst p) (snd p) =? 0 then snd st else snd st + 1)) w (0, 0) in
  if 0 <? hits then (if Z.quot hits 2 <? pos then 255 else 0) else def.
(** imgproc.cpp:324-358 *)
Definition bin_consensus (force : bool) (f : Z -> Z -> Z) (mincount : option (Z -> Z -> Z)) (rows cols ksize y x : Z) : Z :=
  match mincount with
  | None => bin_median force f rows cols ksize y x
  | Some mc => if mc y x <=? box_hits (binary_integral force f None) rows cols (Z.quot ksize 2) y x then 255 else 0
  end.
(** imgproc.cpp:612 and imgproc.hpp:84-88: accepted output depths (CV_32S = 4, CV_32F = 5) and the default argument *)
Definition depth_accepted (d : Z) : bool := (d =? 4) || (d =? 5).
Definition default_depth : Z := -1.

(** ** NEON path, imgproc.cpp:615-659; a row is the list of its bytes *)
Definition w16 (v : Z) : Z := v mod 65536.
(** vextq_u16(zero, a, 8-k): k zero lanes, then the first 8-k lanes of a *)
Definition ext (k : nat) (a : list Z) : list Z := repeat 0 k ++ firstn (8 - k) a.
Fixpoint addq (a b : list Z) : list Z := match a, b with x :: a', y :: b' => w16 (x + y) :: addq a' b' | _, _ => [] end.
(** 627-631 *)
Definition psum8 (a : list Z) : list Z :=
  let a := addq a (ext 1 a) in let a := addq a (ext 2 a) in addq a (ext 4 a).
(** 633-638: vmovl_s16 sign-extends the 16-bit lanes *)
Definition s16 (v : Z) : Z := if v <? 32768 then v else v - 65536.
Definition half_block (carry : Z) (a : list Z) : list Z := map (fun v => s16 v + carry) (psum8 a).
(** 622-643: blocks of 16 while more than 16 bytes remain, then the scalar loop *)
Fixpoint scalar_row (carry : Z) (l : list Z) : list Z := match l with [] => [] | v :: r => (carry + v) :: scalar_row (carry + v) r end.
Fixpoint neon_row (fuel : nat) (carry : Z) (l : list Z) : list Z :=
  match fuel with
  | O => []
  | S k => if (16 <? length l)%nat then
             let a := half_block carry (firstn 8 l) in
             let b := half_block (last a 0) (firstn 8 (skipn 8 l)) in
             a ++ b ++ neon_row k (last b 0) (skipn 16 l)
           else scalar_row carry l
  end.
(** 645-657: rows are then accumulated downwards; the vector part adds with saturation, the rest with plain int addition *)
Definition sat32 (v : Z) : Z := Z.max (-2147483648) (Z.min v 2147483647).
Definition vec_part (cols : nat) : nat := (16 * ((cols - 1) / 16))%nat.
Fixpoint acc_row (j vec : nat) (prev cur : list Z) : list Z :=
  match prev, cur with
  | p :: prev', c :: cur' => (if (j <? vec)%nat then sat32 (p + c) else p + c) :: acc_row (S j) vec prev' cur'
  | _, _ => []
  end.
Fixpoint acc_rows (vec : nat) (prev : list Z) (rows : list (list Z)) : list (list Z) :=
  match rows with [] => [] | r :: rs => let o := acc_row 0 vec prev r in o :: acc_rows vec o rs end.
Definition neon_integral (rows : list (list Z)) : list (list Z) :=
  match map (fun r => neon_row (S (length r)) 0 r) rows with
  | [] => []
  | r0 :: rs => let cols := length r0 in
    repeat 0 (S cols) :: map (cons 0) (r0 :: acc_rows (vec_part cols) r0 rs)
  end.
