(** The greying of masks before they are written, lv::IDataArchiver_<NotArray>::saveOutput, modules/datasets/src/utils.cpp:1484-1498 (the same code at 1562-1571 and 1590-1599).
    The input is an 8-bit image; pixels and the region of interest are read with at_ of Model/Metrics.v. *)
From Coq Require Import ZArith List Bool.
From Verif Require Import Lib.Grid Model.Metrics.
Import ListNotations.
Open Scope Z_scope.

(** line 1488: countNonZero(o==UCHAR_MAX)+countNonZero(o==0) is the area *)
Definition is_binary (o : mat) : bool :=
  let g := grid 0 (mrows o) 0 (mcols o) in
  count (fun p => at_ o (fst p) (snd p) =? 255) g + count (fun p => at_ o (fst p) (snd p) =? 0) g =? mrows o * mcols o.
(** lines 1492-1493 on one pixel: bitwise_or and bitwise_and with 127 where the ROI is 0 *)
Definition grey (v r : Z) : Z := if r =? 0 then Z.land (Z.lor v 127) 127 else v.
(** what is written; [gt_image] says that the ground truth is an image with element mapping, [roi] None is an empty matrix; clone makes the rows contiguous *)
Definition saved (gt_image : bool) (roi : option mat) (o : mat) : mat :=
  if gt_image && is_binary o then
    match roi with
    | Some r => if (mrows r =? mrows o) && (mcols r =? mcols o)
                then Mat (mrows o) (mcols o) (mcols o) (fun a => grey (at_ o (a / mcols o) (a mod mcols o)) (at_ r (a / mcols o) (a mod mcols o)))
                else o
    | None => o
    end
  else o.
