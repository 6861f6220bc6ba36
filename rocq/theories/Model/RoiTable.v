(** Regions of interest and pixel tables of background subtractors, IIBackgroundSubtractor, modules/video/src/BackgroundSubtractionUtils.cpp:28-50 and 70-150.
    A mask is a function of row and column; cv::dilate with an empty kernel and n iterations is the maximum over the (2n+1)x(2n+1) square inside the image, by its documentation; 255/2 is rounded to the even 128.
    Not modelled: the warning about grey images (lines 72-82) and the conversion of indices to int, exact for images of less than 2^31 pixels. *)
From Coq Require Import ZArith List Bool.
From Verif Require Import Lib.Grid.
Import ListNotations.
Open Scope Z_scope.

Record mask := Mask { rows : Z; cols : Z; px : Z -> Z -> Z }.
Definition pixels (m : mask) : list (Z * Z) := grid 0 (rows m) 0 (cols m).
(** cv::countNonZero *)
Definition nonzero (m : mask) : Z := count (fun p => negb (px m (fst p) (snd p) =? 0)) (pixels m).
(** validateROI, lines 28-36; [b] is m_nROIBorderSize; None when an assertion fails, in cv::Mat for a border too large *)
Definition validateROI (b : Z) (m : mask) : option mask :=
  if (rows m <=? 0) || (cols m <=? 0) then None
  else if 0 <? b then
    if (cols m <? 2 * b) || (rows m <? 2 * b) then None
    else Some (Mask (rows m) (cols m) (fun y x => if (b <=? y) && (y <? b + (rows m - 2 * b)) && (b <=? x) && (x <? b + (cols m - 2 * b)) then px m y x else 0))
  else Some m.
Definition dilate (n : Z) (m : mask) : mask :=
  Mask (rows m) (cols m) (fun y x => fold_left Z.max (map (fun p => px m (fst p) (snd p)) (filter (fun p => (0 <=? fst p) && (fst p <? rows m) && (0 <=? snd p) && (snd p <? cols m)) (grid (y - n) (2 * n + 1) (x - n) (2 * n + 1)))) 0).
(** the value of d/2 for an 8-bit matrix, with rounding to even *)
Definition half (v : Z) : Z := if Z.even v then v / 2 else let q := v / 2 in if Z.even q then q else q + 1.
(** lines 83-102: the region used for images of a size, given the current one and the one passed, None being an empty matrix *)
Definition initialize_roi (b : Z) (current given : option mask) (h w : Z) : option mask :=
  if (h <=? 0) || (w <=? 0) then None
  else
    let fresh := match given with
      | None => match current with
                | Some m => if (rows m =? h) && (cols m =? w) then Some m else Some (Mask h w (fun _ _ => 255))
                | None => Some (Mask h w (fun _ _ => 255))
                end
      | Some r =>
        if negb ((rows r =? h) && (cols r =? w)) then None
        else if negb (forallb (fun p => negb ((px r (fst p) (snd p) <? 255) && (0 <? px r (fst p) (snd p)))) (pixels r)) then None
        else let t := dilate b r in Some (Mask h w (fun y x => Z.lor (px r y x) (half (px t y x))))
      end in
    match fresh with
    | None => None
    | Some m => if 0 <? nonzero m then match validateROI b m with None => None | Some f => if 0 <? nonzero f then Some f else None end else None
    end.
(** setROI before any initialisation, lines 38-47 *)
Definition setROI (b : Z) (m : mask) : option mask := match validateROI b m with None => None | Some f => if 0 <? nonzero f then Some f else None end.

(** the tables, lines 117-150 *)
Record info := Info { coord_y : Z; coord_x : Z; model : option Z }. (* None is SIZE_MAX *)
Record tables := Tables { lut : list Z; infos : list info; last : list Z }.
Definition data (m : mask) (i : Z) : Z := px m (i / cols m) (i mod cols m).
(** one round of the loop, lines 120-131 and 135-150; [ch] channels; [img] the bytes of the first image; the vectors are built by appending instead of in place *)
Definition table_step (m : mask) (ch : Z) (img : Z -> Z) (t : tables) (i : Z) : tables :=
  if negb (data m i =? 0)
  then Tables (lut t ++ [i]) (infos t ++ [Info (i / cols m) (i mod cols m) (Some (Z.of_nat (length (lut t))))]) (last t ++ map (fun c => img (i * ch + c)) (zrange 0 ch))
  else Tables (lut t) (infos t ++ [Info (i / cols m) (i mod cols m) None]) (last t ++ map (fun _ => 0) (zrange 0 ch)).
Definition tables_of (m : mask) (ch : Z) (img : Z -> Z) : tables := fold_left (table_step m ch img) (zrange 0 (rows m * cols m)) (Tables [] [] []).
