(* The image warper based on moving least squares: ImageWarper of modules/imgproc/src/imwarp.cpp (whole file).
   Doubles are exact rationals here; a division by zero gives a NaN, which is kept apart. Integers are unbounded: the loop counters of
   the code are int and stay below width + 2*grid size. *)
From Coq Require Import ZArith QArith Qround List Bool.
From Verif Require Import Lib.Grid.
Import ListNotations.
Open Scope Q_scope.

(* imwarp.hpp:26-30; computeTransform asserts that CUSTOM is not used, imwarp.cpp:123 *)
Inductive mode := RIGID | SIMILARITY.

(* a control point: its place in the source image and in the destination image; m_vSourcePts and m_vDestPts have the same length by
   the assertion of imwarp.cpp:58 *)
Record control := { sx : Q; sy : Q; dx : Q; dy : Q }.

(* an accumulation over the control points *)
Definition qsum (f : control -> Q) (l : list control) : Q := fold_left (fun a p => a + f p) l 0.

(* sqrt of line 188, exact on squares of rationals *)
Definition qsqrt (q : Q) : Q := let r := Qred q in Qmake (Z.sqrt (Qnum r)) (Pos.sqrt (Qden r)).

(* an entry of m_oDeltaX and m_oDeltaY: not written yet, not a number, or a displacement *)
Inductive cell := Unset | NaN | Delta (x y : Q).

(* lines 161-166 (DIST_EXP_ALPHA is 1.0) and 243-244 *)
Definition weight (x y : Q) (p : control) : Q := 1 / ((x - dx p) * (x - dx p) + (y - dy p) * (y - dy p)).

(* lines 154-203 for RIGID and 236-278 for SIMILARITY: the source point of the node at column x and row y; None stands for a NaN *)
Definition moved (m : mode) (pts : list control) (x y : Q) : option (Q * Q) :=
  match find (fun p => Qeq_bool x (dx p) && Qeq_bool y (dy p)) pts with
  | Some p => Some (sx p, sy p)
  | None =>
      let w := weight x y in
      let k := 1 / qsum w pts in
      let wdx := k * qsum (fun p => w p * dx p) pts in
      let wdy := k * qsum (fun p => w p * dy p) pts in
      let wsx := k * qsum (fun p => w p * sx p) pts in
      let wsy := k * qsum (fun p => w p * sy p) pts in
      let ix p := dx p - wdx in
      let iy p := dy p - wdy in
      let jx p := sx p - wsx in
      let jy p := sy p - wsy in
      let miu :=
        match m with
        | SIMILARITY => qsum (fun p => w p * (ix p * ix p + iy p * iy p)) pts
        | RIGID =>
            let s1 := qsum (fun p => w p * (jx p * ix p + jy p * iy p)) pts in
            let s2 := qsum (fun p => w p * (jx p * - iy p + jy p * ix p)) pts in
            qsqrt (s1 * s1 + s2 * s2)
        end in
      let cx := x - wdx in
      let cy := y - wdy in
      (* v.dot(v') with vPtI_R=(-vPtI.y,vPtI.x) and vCurrPt_R=(-vCurrPt.y,vCurrPt.x) *)
      let tx p := (ix p * cx + iy p * cy) * sx p - (- iy p * cx + ix p * cy) * sy p in
      let ty p := - (ix p * - cy + iy p * cx) * sx p + (- iy p * - cy + ix p * cx) * sy p in
      if Qeq_bool miu 0 then None
      else Some (qsum (fun p => tx p * (w p / miu)) pts + wsx, qsum (fun p => ty p * (w p / miu)) pts + wsy)
  end.

(* what is written at a node; lines 208-209 and 279-280 *)
Definition entry (m : mode) (pts : list control) (row col : Z) : cell :=
  match moved m pts (inject_Z col) (inject_Z row) with
  | None => NaN
  | Some (x, y) => Delta (x - inject_Z col) (y - inject_Z row)
  end.

(* the values taken by nColIdx (nRowIdx) in the body of the loops of lines 144-149 and 226-231: the counter is brought back to the last
   column when it passes the border for the first time *)
Fixpoint nodes_from (fuel : nat) (g size n : Z) : list Z :=
  match fuel with
  | O => []
  | S f =>
      if ((size <=? n) && (n <? size + g - 1))%Z then (size - 1)%Z :: nodes_from f g size (size - 1 + g)%Z
      else if (size <=? n)%Z then []
      else n :: nodes_from f g size (n + g)%Z
  end.
Definition nodes (g size : Z) : list Z := nodes_from (S (Z.to_nat size)) g size 0.

Definition field := Z -> Z -> cell.
Definition put (f : field) (row col : Z) (v : cell) : field :=
  fun r c => if ((r =? row) && (c =? col))%Z then v else f r c.

(* computeTransform, lines 122-285; the matrices created at lines 137-138 and 219-220 hold no values yet *)
Definition computeTransform (m : mode) (pts : list control) (g height width : Z) : field :=
  if (length pts <? 2)%nat then fun _ _ => Delta 0 0
  else fold_left (fun f col => fold_left (fun f row => put f row col (entry m pts row col)) (nodes g height) f) (nodes g width) (fun _ _ => Unset).

(* interp, lines 37-40 *)
Definition interp (x y v11 v12 v21 v22 : Q) : Q := (v11 * (1 - y) + v12 * y) * (1 - x) + (v21 * (1 - y) + v22 * y) * x.

(* std::min and std::max *)
Definition qmin (a b : Q) : Q := if Qle_bool a b then a else b.
Definition qmax (a b : Q) : Q := if Qle_bool b a then a else b.

(* what happens for an output pixel: its channel values, a read of a displacement never computed, or a conversion of a NaN to int *)
Inductive outcome := Pixel (v : list Z) | Unset_read | Not_a_number.

(* lines 79-92: loop counters and cells *)
Fixpoint strides_from (fuel : nat) (g size n : Z) : list Z :=
  match fuel with
  | O => []
  | S f => if (n <? size)%Z then n :: strides_from f g size (n + g)%Z else []
  end.
Definition strides (g size : Z) : list Z := strides_from (S (Z.to_nat size)) g size 0.
Definition next (g size n : Z) : Z := if (size <=? n + g)%Z then (size - 1)%Z else (n + g)%Z.
Definition extent (g size n : Z) : Z := if (size <=? n + g)%Z then (next g size n - n + 1)%Z else g.

(* lines 97-98, both displacements at once *)
Definition displacement (f : field) (x y : Q) (row col nrow ncol : Z) : cell :=
  match f row col, f row ncol, f nrow col, f nrow ncol with
  | Delta ax ay, Delta bx by_, Delta cx cy, Delta ex ey => Delta (interp x y ax bx cx ex) (interp x y ay by_ cy ey)
  | Unset, _, _, _ | _, Unset, _, _ | _, _, Unset, _ | _, _, _, Unset => Unset
  | _, _, _, _ => NaN
  end.

(* lines 99-100 *)
Definition clamp (v : Q) (size : Z) : Q := qmax (qmin v (inject_Z size - 1)) 0.

(* an image: row, column, channel *)
Definition image := Z -> Z -> Z -> Z.

(* lines 101-114: the four source pixels and their mix, truncated to uchar *)
Definition sample (img : image) (orow ocol : Q) (ch : Z) : Z :=
  let rl := Qfloor orow in let cl := Qfloor ocol in
  let rh := Qceiling orow in let chh := Qceiling ocol in
  Qfloor (interp (orow - inject_Z rl) (ocol - inject_Z cl)
    (inject_Z (img rl cl ch)) (inject_Z (img rl chh ch)) (inject_Z (img rh cl ch)) (inject_Z (img rh chh ch))).

(* lines 93-115: one pixel of a cell *)
Definition warp_pixel (f : field) (g sheight swidth height width channels : Z) (img : image) (ratio : Q) (row col crow ccol : Z) : outcome :=
  let x := inject_Z crow / inject_Z (extent g height row) in
  let y := inject_Z ccol / inject_Z (extent g width col) in
  match displacement f x y row col (next g height row) (next g width col) with
  | Unset => Unset_read
  | NaN => Not_a_number
  | Delta ddx ddy =>
      let ocol := clamp (inject_Z (col + ccol) + ddx * ratio) swidth in
      let orow := clamp (inject_Z (row + crow) + ddy * ratio) sheight in
      Pixel (map (sample img orow ocol) (zrange 0 channels))
  end.

(* ImageWarper::warp, lines 70-120: the pixels written, in order *)
Definition warp (f : field) (g sheight swidth height width channels : Z) (img : image) (ratio : Q) : list ((Z * Z) * outcome) :=
  flat_map (fun row =>
    flat_map (fun col =>
      flat_map (fun crow =>
        map (fun ccol => ((row + crow, col + ccol)%Z, warp_pixel f g sheight swidth height width channels img ratio row col crow ccol))
          (zrange 0 (extent g width col)))
        (zrange 0 (extent g height row)))
      (strides g width))
    (strides g height).
