(** Regions of interest of video cosegmentation, IVideoCosegmentor_, modules/video/include/litiv/video/VideoCosegmentationUtils.inl.hpp:33-62 and 80-122.
    Masks and their counts are those of Model/RoiTable.v; an array is a list, and an empty matrix a mask without rows or columns.
    The result of each function holds what is left in its arguments or members also when an assertion fails, together with whether none did.
    Not modelled: the warning about grey images (lines 89-97), the check that images are continuous (line 88), the last masks and inputs, the counters of frames; the copies of lines 53, 60 and 102 are values here. *)
From Coq Require Import ZArith List Bool.
From Verif Require Import Lib.Grid Model.RoiTable.
Import ListNotations.
Open Scope Z_scope.

Definition empty (m : mask) : bool := (rows m <=? 0) || (cols m <=? 0).
(** lines 41-44, one matrix: the rectangle oROI_inner must be within the matrix *)
Definition crop (b : Z) (m : mask) : option mask :=
  if (cols m <? 2 * b) || (rows m <? 2 * b) then None
  else Some (Mask (rows m) (cols m) (fun y x => if (b <=? y) && (y <? b + (rows m - 2 * b)) && (b <=? x) && (x <? b + (cols m - 2 * b)) then px m y x else 0)).
(** the loop of lines 40-45; the matrices before a failing one are replaced already *)
Fixpoint crop_all (b : Z) (ms : list mask) : list mask * bool :=
  match ms with
  | [] => ([], true)
  | m :: r => match crop b m with
              | None => (m :: r, false)
              | Some m' => let (r', ok) := crop_all b r in (m' :: r', ok)
              end
  end.
(** validateROIs, lines 34-47 *)
Definition validateROIs (b : Z) (ms : list mask) : list mask * bool :=
  if forallb (fun m => negb (empty m) && (0 <? nonzero m)) ms
  then if 0 <? b then crop_all b ms else (ms, true)
  else (ms, false).

(** the members of one input: m_aROIs, m_anOrigROIPxCounts, m_anFinalROIPxCounts, m_anTotPxCounts *)
Record slot := Slot { roi : mask; orig : Z; final : Z; total : Z }.
(** lines 52-53 *)
Fixpoint store (ms : list mask) (ss : list slot) : list slot :=
  match ms, ss with
  | m :: mr, s :: sr => Slot m (orig s) (final s) (total s) :: store mr sr
  | _, _ => ss
  end.
(** setROIs, lines 50-54: the array of the caller, the members, and success *)
Definition setROIs (b : Z) (ms : list mask) (ss : list slot) : list mask * list slot * bool :=
  let (ms', ok) := validateROIs b ms in (ms', if ok then store ms' ss else ss, ok).
(** getROIsCopy, lines 57-62 *)
Definition getROIsCopy (ss : list slot) : list mask := map roi ss.

(** an input of initialize_common: the height and width of the image, and the region given *)
Definition input : Type := (Z * Z * mask)%type.
(** the first loop of initialize_common, lines 87-106: the members, and aNewROIs unless an assertion fails *)
Fixpoint prepare (ins : list input) (ss : list slot) : list slot * option (list mask) :=
  match ins, ss with
  | (h, w, g) :: ir, s :: sr =>
    if (h <=? 0) || (w <=? 0) then (ss, None)
    else if negb (empty g) && negb ((rows g =? h) && (cols g =? w)) then (ss, None)
    else let m := if empty g then Mask h w (fun _ _ => 255) else g in
         let s' := Slot (roi s) (nonzero m) (final s) (total s) in
         if 0 <? nonzero m then let (sr', o) := prepare ir sr in (s' :: sr', option_map (cons m) o)
         else (s' :: sr, None)
  | _, _ => (ss, Some [])
  end.
(** the second loop, lines 108-121 *)
Fixpoint finish (ms : list mask) (ss : list slot) : list slot * bool :=
  match ms, ss with
  | m :: mr, s :: sr =>
    if 0 <? nonzero m then let (sr', ok) := finish mr sr in (Slot m (orig s) (nonzero m) (rows m * cols m) :: sr', ok)
    else (Slot (roi s) (orig s) (nonzero m) (total s) :: sr, false)
  | _, _ => (ss, true)
  end.
(** initialize_common, lines 81-122 *)
Definition initialize (b : Z) (ins : list input) (ss : list slot) : list slot * bool :=
  let (ss1, o) := prepare ins ss in
  match o with
  | None => (ss1, false)
  | Some ms => let (ms', ok) := validateROIs b ms in if ok then finish ms' ss1 else (ss1, false)
  end.
