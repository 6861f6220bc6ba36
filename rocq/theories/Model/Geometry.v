(** lv::copyValidPixelsTo (modules/utils/src/opencv.cpp:117-170) and lv::shift (opencv.cpp:753-827).
    Images are total functions with their size; only the entries inside the size are meaningful. The output image is assumed not to
    share memory with the input. cv::Mat::copyTo, countNonZero, copyMakeBorder and sepFilter2D follow the OpenCV documentation. *)
From Coq Require Import ZArith List Bool QArith Qround Qabs.
From Verif Require Import Lib.Grid.
Open Scope Z_scope.

Record image (A : Type) := Img { irows : Z; icols : Z; px : Z -> Z -> A }.
Arguments Img {A}. Arguments irows {A}. Arguments icols {A}. Arguments px {A}.
Record rect := Rect { rx : Z; ry : Z; rw : Z; rh : Z }.

Inductive copy_result (A : Type) :=
| Copied (n : Z) (valid : rect) (out : image A)
| CopyThrows
| CopyOverflow.  (* signed integer overflow *)
Arguments Copied {A}. Arguments CopyThrows {A}. Arguments CopyOverflow {A}.
Definition is_int (x : Z) : bool := (- 2 ^ 31 <=? x) && (x <? 2 ^ 31).

(** opencv.cpp:133-156: the two rectangles are clipped together *)
Definition clip_x (cols : Z) (i o : rect) : rect * rect :=
  if rx o <? 0 then (Rect (rx i - rx o) (ry i) (rw i + rx o) (rh i), Rect 0 (ry o) (rw o + rx o) (rh o)) else (i, o).
Definition clip_y (i o : rect) : rect * rect :=
  if ry o <? 0 then (Rect (rx i) (ry i - ry o) (rw i) (rh i + ry o), Rect (rx o) 0 (rw o) (rh o + ry o)) else (i, o).
Definition clip_r (cols : Z) (i o : rect) : rect * rect :=
  if cols <? rx o + rw o then
    let d := rx o + rw o - cols in (Rect (rx i) (ry i) (rw i - d) (rh i), Rect (rx o) (ry o) (rw o - d) (rh o)) else (i, o).
Definition clip_b (rows : Z) (i o : rect) : rect * rect :=
  if rows <? ry o + rh o then
    let d := ry o + rh o - rows in (Rect (rx i) (ry i) (rw i) (rh i - d), Rect (rx o) (ry o) (rw o) (rh o - d)) else (i, o).
Definition clip (rows cols : Z) (i o : rect) : rect * rect :=
  let '(i, o) := clip_x cols i o in let '(i, o) := clip_y i o in let '(i, o) := clip_r cols i o in clip_b rows i o.
Definition inside (r : rect) (y x : Z) : bool := (ry r <=? y) && (y <? ry r + rh r) && ((rx r <=? x) && (x <? rx r + rw r)).
(** opencv.cpp:117-170; the mask is None when empty, else a function of the input coordinates *)
Definition copyValidPixelsTo {A} (img : image A) (ir : rect) (out : image A) (or : rect) (mask : option (Z -> Z -> bool)) : copy_result A :=
  if negb ((0 <? irows img) && (0 <? icols img) && ((0 <? irows out) && (0 <? icols out))) then CopyThrows else
  if negb ((rw ir =? rw or) && (rh ir =? rh or)) then CopyThrows else
  if negb (is_int (rw ir * rh ir)) then CopyOverflow else
  if rw ir * rh ir <=? 0 then Copied 0 (Rect (rx or) (ry or) 0 0) out else
  if negb (is_int (rx ir + rw ir) && is_int (ry ir + rh ir) && (is_int (rx or + rw or) && is_int (ry or + rh or))) then CopyOverflow else
  if negb ((0 <=? rx ir) && (0 <=? ry ir) && ((rx ir + rw ir <=? icols img) && (ry ir + rh ir <=? irows img))) then CopyThrows else
  if (rx or + rw or <=? 0) || (icols out <=? rx or) || ((ry or + rh or <=? 0) || (irows out <=? ry or)) then Copied 0 (Rect (rx or) (ry or) 0 0) out else
  let '(i, o) := clip (irows out) (icols out) ir or in
  (* cv::Mat::operator()(Rect) rejects rectangles of negative size or outside the image *)
  if negb ((0 <=? rw i) && (0 <=? rh i)) then CopyThrows else
  let dy := ry i - ry o in let dx := rx i - rx o in
  match mask with
  | None => Copied (rw o * rh o) o (Img (irows out) (icols out) (fun y x => if inside o y x then px img (y + dy) (x + dx) else px out y x))
  | Some m => Copied (count (fun p => m (fst p) (snd p)) (grid (ry i) (rh i) (rx i) (rw i))) o
      (Img (irows out) (icols out) (fun y x => if inside o y x && m (y + dy) (x + dx) then px img (y + dy) (x + dx) else px out y x))
  end.

(** cv::borderInterpolate; None is the constant border *)
Inductive border := BConstant | BReplicate | BReflect | BReflect101 | BWrap.
Fixpoint bounce (fuel : nat) (len delta p : Z) : Z :=
  match fuel with
  | O => p
  | S k => if (0 <=? p) && (p <? len) then p else bounce k len delta (if p <? 0 then - p - 1 + delta else len - 1 - (p - len) - delta)
  end.
Definition borderInterpolate (b : border) (p len : Z) : option Z :=
  if (0 <=? p) && (p <? len) then Some p else
  match b with
  | BConstant => None
  | BReplicate => Some (if p <? 0 then 0 else len - 1)
  | BReflect => Some (if len =? 1 then 0 else bounce (Z.to_nat (Z.abs p + 2)) len 0 p)
  | BReflect101 => Some (if len =? 1 then 0 else bounce (Z.to_nat (Z.abs p + 2)) len 1 p)
  | BWrap => let p1 := if p <? 0 then p - Z.quot (p - len + 1) len * len else p in
             Some (if len <=? p1 then Z.rem p1 len else p1)
  end.
(** the border extension of an image *)
Definition extend (img : image Q) (b : border) (fill : Q) (y x : Z) : Q :=
  match borderInterpolate b y (irows img), borderInterpolate b x (icols img) with Some y', Some x' => px img y' x' | _, _ => fill end.
(** copyMakeBorder: the enlarged image *)
Definition copyMakeBorder (img : image Q) (top bottom left right : Z) (b : border) (fill : Q) : image Q :=
  Img (irows img + top + bottom) (icols img + left + right) (fun y x => extend img b fill (y - top) (x - left)).
(** sepFilter2D with kernels (1-s,s), anchor (0,0), BORDER_CONSTANT: samples outside the enlarged image are 0 *)
Definition at0 (img : image Q) (y x : Z) : Q :=
  if (0 <=? y) && (y <? irows img) && ((0 <=? x) && (x <? icols img)) then px img y x else 0%Q.
Definition sepFilter (img : image Q) (sx sy : Q) : image Q :=
  Img (irows img) (icols img) (fun y x =>
    (1 - sy) * ((1 - sx) * at0 img y x + sx * at0 img y (x + 1)) + sy * ((1 - sx) * at0 img (y + 1) x + sx * at0 img (y + 1) (x + 1)))%Q.
(** std::numeric_limits<float>::epsilon() *)
Definition feps : Q := 1 # 8388608.
(** opencv.cpp:793-826, exact arithmetic *)
Definition shift (img : image Q) (dx dy : Q) (b : border) (fill : Q) : option (image Q) :=
  if negb (Qle_bool (Qabs dx) (inject_Z (icols img)) && negb (Qeq_bool (Qabs dx) (inject_Z (icols img))) &&
           (Qle_bool (Qabs dy) (inject_Z (irows img)) && negb (Qeq_bool (Qabs dy) (inject_Z (irows img))))) then None else
  let ix := Qceiling dx in let iy := Qceiling dy in
  let sx := Qabs (dx - inject_Z ix) in let sy := Qabs (dy - inject_Z iy) in
  let top := if 0 <? iy then iy else 0 in let bottom := if iy <? 0 then - iy else 0 in
  let left := if 0 <? ix then ix else 0 in let right := if ix <? 0 then - ix else 0 in
  let p := copyMakeBorder img top bottom left right b fill in
  let f := if negb (Qle_bool sx feps) || negb (Qle_bool sy feps) then sepFilter p sx sy else p in
  let ox := Z.max (- ix) 0 in let oy := Z.max (- iy) 0 in
  Some (Img (irows img) (icols img) (fun y x => px f (y + oy) (x + ox))).
