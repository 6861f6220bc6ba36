(* Values between pixels: modules/utils/include/litiv/utils/opencv.hpp lines 638-658 (each channel) and 670-684 (getSubPix).
   Coordinates are x/d and y/d for integers x, y and a positive d; arithmetic is exact here and in float there. *)
From Coq Require Import ZArith List Bool.
Import ListNotations.
Open Scope Z_scope.

(* cv::borderInterpolate of OpenCV, for len above 0: BORDER_REPLICATE (the default), BORDER_WRAP, BORDER_CONSTANT *)
Inductive border := Replicate | Wrap | Constant.
Definition interpolate (b : border) (p len : Z) : Z :=
  if (0 <=? p) && (p <? len) then p else
  match b with
  | Replicate => if p <? 0 then 0 else len - 1
  | Wrap => p mod len
  | Constant => -1
  end.
Record image := { rows : Z; cols : Z; px : Z -> Z -> Z }.
(* oMat(r,c), the check of debug builds is None *)
Definition at_ (m : image) (r c : Z) : option Z := if (0 <=? r) && (r <? rows m) && (0 <=? c) && (c <? cols m) then Some (px m r c) else None.
(* lines 675-682 and 644-652: fR, as a count of 1/(d*d); (int)fX truncates *)
Definition mix (m : image) (b : border) (d x y : Z) : option Z :=
  let nx := Z.quot x d in let ny := Z.quot y d in
  let x0 := interpolate b nx (cols m) in let x1 := interpolate b (nx + 1) (cols m) in
  let y0 := interpolate b ny (rows m) in let y1 := interpolate b (ny + 1) (rows m) in
  let dx := x - nx * d in let dy := y - ny * d in
  match at_ m y0 x0, at_ m y0 x1, at_ m y1 x0, at_ m y1 x1 with
  | Some p00, Some p01, Some p10, Some p11 =>
    let r0 := p00 * (d - dx) + p01 * dx in
    let r1 := p10 * (d - dx) + p11 * dx in
    Some (r0 * (d - dy) + r1 * dy)
  | _, _, _, _ => None
  end.
(* std::round of n/e, e > 0: halves away from 0 *)
Definition round (n e : Z) : Z := if 0 <=? n then (2 * n + e) / (2 * e) else - ((2 * - n + e) / (2 * e)).
(* lines 653 and 683 for integral TRetVal, before it is converted to that type *)
Definition sub_pix (m : image) (b : border) (d x y : Z) : option Z := option_map (fun n => round n (d * d)) (mix m b d x y).
(* modules/imgproc/src/imgproc.cpp lines 709-729: computeTemporalAbsDiff of one channel without smoothing, as a count of 1/(d*d); the flow of (r,c) is (fx/d, fy/d) *)
Definition temporal_diff (old new : image) (d : Z) (fx fy : Z -> Z -> Z) (r c : Z) : option Z :=
  option_map (fun v => Z.abs (px old r c * (d * d) - v)) (mix new Replicate d (c * d + fx r c) (r * d + fy r c)).
