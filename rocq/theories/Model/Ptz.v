(* The virtual PTZ camera: points of the view and directions on the sphere. vptz::PTZPointXYtoHV and PTZPointHVtoXY, modules/vptz/src/virtualptz.cpp lines 782-835 and 843-922,
   and GTTranslator::GetGTBoundingBox (lines 355-389; GetGTTargetPoint, lines 340-353, is PTZPointHVtoXY in the current view). Doubles are reals; angles are in degrees. *)
From Coq Require Import ZArith Reals Bool.
Open Scope R_scope.

(* modules/utils/include/litiv/utils/defines.hpp.in lines 43-48 *)
Definition d2r (d : R) : R := d * (PI / 180).
Definition r2d (r : R) : R := r * (180 / PI).
Definition ltb (x y : R) : bool := if Rlt_dec x y then true else false.
Definition leb (x y : R) : bool := if Rle_dec x y then true else false.
Definition atan2 (y x : R) : R :=
  if ltb 0 x then atan (y / x)
  else if ltb x 0 then (if leb 0 y then atan (y / x) + PI else atan (y / x) - PI)
  else if ltb 0 y then PI / 2 else if ltb y 0 then - (PI / 2) else 0.
(* the conversion of a double to int, towards zero; outside of the range of int it is undefined *)
Definition trunc (r : R) : Z := if Rle_dec 0 r then Int_part r else (- Int_part (- r))%Z.
Definition int_max : Z := 2147483647.
Definition to_int (r : R) : option Z := let z := trunc r in if ((- int_max - 1 <=? z) && (z <=? int_max))%Z then Some z else None.

Record vec := { vx : R; vy : R; vz : R }.
Record mat := { m00 : R; m01 : R; m02 : R; m10 : R; m11 : R; m12 : R; m20 : R; m21 : R; m22 : R }.
Definition mul (a b : mat) : mat :=
  {| m00 := m00 a * m00 b + m01 a * m10 b + m02 a * m20 b; m01 := m00 a * m01 b + m01 a * m11 b + m02 a * m21 b; m02 := m00 a * m02 b + m01 a * m12 b + m02 a * m22 b;
     m10 := m10 a * m00 b + m11 a * m10 b + m12 a * m20 b; m11 := m10 a * m01 b + m11 a * m11 b + m12 a * m21 b; m12 := m10 a * m02 b + m11 a * m12 b + m12 a * m22 b;
     m20 := m20 a * m00 b + m21 a * m10 b + m22 a * m20 b; m21 := m20 a * m01 b + m21 a * m11 b + m22 a * m21 b; m22 := m20 a * m02 b + m21 a * m12 b + m22 a * m22 b |}.
Definition apply (a : mat) (v : vec) : vec :=
  {| vx := m00 a * vx v + m01 a * vy v + m02 a * vz v; vy := m10 a * vx v + m11 a * vy v + m12 a * vz v; vz := m20 a * vx v + m21 a * vy v + m22 a * vz v |}.
Definition det (a : mat) : R :=
  m00 a * (m11 a * m22 a - m12 a * m21 a) - m01 a * (m10 a * m22 a - m12 a * m20 a) + m02 a * (m10 a * m21 a - m11 a * m20 a).
(* cv::Mat::inv of a 3x3 matrix: cofactors over the determinant *)
Definition inv (a : mat) : mat :=
  let d := / det a in
  {| m00 := (m11 a * m22 a - m12 a * m21 a) * d; m01 := (m02 a * m21 a - m01 a * m22 a) * d; m02 := (m01 a * m12 a - m02 a * m11 a) * d;
     m10 := (m12 a * m20 a - m10 a * m22 a) * d; m11 := (m00 a * m22 a - m02 a * m20 a) * d; m12 := (m02 a * m10 a - m00 a * m12 a) * d;
     m20 := (m10 a * m21 a - m11 a * m20 a) * d; m21 := (m01 a * m20 a - m00 a * m21 a) * d; m22 := (m00 a * m11 a - m01 a * m10 a) * d |}.
(* lines 803-817 and 882-896 *)
Definition rotate_x (a : R) : mat := {| m00 := 1; m01 := 0; m02 := 0; m10 := 0; m11 := cos a; m12 := - sin a; m20 := 0; m21 := sin a; m22 := cos a |}.
Definition rotate_z (a : R) : mat := {| m00 := cos a; m01 := - sin a; m02 := 0; m10 := sin a; m11 := cos a; m12 := 0; m20 := 0; m21 := 0; m22 := 1 |}.
Definition view_matrix (hori verti : R) : mat := mul (rotate_x (d2r (verti - 180))) (rotate_z (d2r (90 - hori))).

(* a view: camOutputWidth, camOutputHeight, camVertiFOV, camHoriAngle, camVertiAngle *)
Record view := { width : Z; height : Z; fov : R; hori : R; verti : R }.
Definition good_angles (h v : R) : bool := negb (leb h (-180)) && negb (ltb 180 h) && negb (ltb v 0) && negb (ltb 180 v).
Definition good_view (c : view) : bool := negb (width c <? 1)%Z && negb (height c <? 1)%Z && negb (leb (fov c) 0) && negb (leb 180 (fov c)) && good_angles (hori c) (verti c).
(* PTZPointXYtoHV: None is lvError *)
Definition xy_to_hv (c : view) (x y : Z) : option (R * R) :=
  if negb (good_view c) || (x <? 0)%Z || (width c <=? x)%Z || (y <? 0)%Z || (height c <=? y)%Z then None
  else
    let ray := {| vx := IZR x - IZR (width c) / 2; vy := - (IZR y - IZR (height c) / 2); vz := - IZR (height c) / 2 / tan (d2r (fov c) / 2) |} in
    let w := apply (inv (view_matrix (hori c) (verti c))) ray in
    Some (r2d (atan2 (vy w) (vx w)), r2d (acos (vz w / sqrt (vx w * vx w + vy w * vy w + vz w * vz w)))).

Definition direction (h v : R) : vec := {| vx := sin (d2r v) * cos (d2r h); vy := sin (d2r v) * sin (d2r h); vz := cos (d2r v) |}.
Definition dot (a b : vec) : R := vx a * vx b + vy a * vy b + vz a * vz b.
(* Undefined: a conversion of a value that is no int, among them those from a division by zero *)
Inductive projected := Bad | Behind | Undefined | At (x y : Z).
(* PTZPointHVtoXY *)
Definition hv_to_xy (c : view) (h v : R) : projected :=
  if negb (good_view c && good_angles h v) then Bad
  else
    let t := direction h v in
    let m := direction (hori c) (verti c) in
    if ltb 90 (r2d (acos (dot t m / (dot t t * dot m m)))) then Behind
    else
      let r := apply (view_matrix (hori c) (verti c)) t in
      if Req_EM_T (vz r) 0 then Undefined
      else
        let ratio := IZR (width c) / IZR (height c) in
        let xn := vx r / (- vz r) / (ratio * 2 * tan (d2r (fov c) / 2)) in
        let yn := vy r / (- vz r) / (2 * tan (d2r (fov c) / 2)) in
        match to_int ((xn + / 2) * IZR (width c) + / 2), to_int ((/ 2 - yn) * IZR (height c) + / 2) with
        | Some x, Some y => At x y
        | _, _ => Undefined
        end.

(* C++ division of integers *)
Definition half (a : Z) : Z := Z.quot a 2.
Inductive boxed := Box_error | Box_false | Box_undefined | Box (x y w h : Z).
(* GetGTBoundingBox: bgt is the view of the basic ground truth towards the target, cur the current view. All four conversions to angles are made first;
   the conversions back stop at the first that is false *)
Definition bounding_box (bgt cur : view) (bw bh : Z) : boxed :=
  if negb (good_angles (hori bgt) (verti bgt)) || (bw <? 0)%Z || (width bgt <? bw)%Z || (bh <? 0)%Z || (height bgt <? bh)%Z then Box_error
  else
    let l := half (width bgt - bw) in
    let r := half (width bgt + bw) in
    let t := half (height bgt - bh) in
    let b := half (height bgt + bh) in
    match xy_to_hv bgt l t, xy_to_hv bgt l b, xy_to_hv bgt r t, xy_to_hv bgt r b with
    | Some (h1, v1), Some (h2, v2), Some (h3, v3), Some (h4, v4) =>
      match hv_to_xy cur h1 v1 with
      | Bad => Box_error | Behind => Box_false | Undefined => Box_undefined
      | At x1 y1 => match hv_to_xy cur h2 v2 with
        | Bad => Box_error | Behind => Box_false | Undefined => Box_undefined
        | At x2 y2 => match hv_to_xy cur h3 v3 with
          | Bad => Box_error | Behind => Box_false | Undefined => Box_undefined
          | At x3 y3 => match hv_to_xy cur h4 v4 with
            | Bad => Box_error | Behind => Box_false | Undefined => Box_undefined
            | At x4 y4 =>
              (* cv::Rect of two opposite corners *)
              let ax := half (x1 + x2) in let ay := half (y1 + y3) in
              let bx := half (x4 + x3) in let by_ := half (y4 + y2) in
              Box (Z.min ax bx) (Z.min ay by_) (Z.max ax bx - Z.min ax bx) (Z.max ay by_ - Z.min ay by_)
            end end end end
    | _, _, _, _ => Box_error
    end.
