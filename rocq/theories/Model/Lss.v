(* Local self-similarity descriptors: modules/features2d/src/LSS.cpp lines 29-51 (constructor), 97-141 (accessors, compute2), 213-338 (both ssdescs_impl and ssdescs_norm), with the static
   noise level that is compiled in (line 25). Bins are real numbers instead of floats, cv::matchTemplate gives exact sums of squared differences, and an image is what comes out of the optional
   smoothing. The lookup map is a parameter: its raster of entries (None for -1) with the first and last index that lv::getLogPolarMask reported (Model/LogPolar.v).
   Keypoints have integer coordinates and have already passed the border filter (see Model/KeyPoints.v for both). Positions are (row, column). *)
From Coq Require Import ZArith Reals List Bool.
From Verif Require Import Lib.Grid.
Import ListNotations.
Open Scope Z_scope.

(* channels, rows, columns; the channel is the first argument of px *)
Record image := { chans : Z; rows : Z; cols : Z; px : Z -> Z -> Z -> Z }.
(* lines 29-41: m_nPatchSize, m_nOuterRadius, m_nRadialBins*m_nAngularBins, m_oDescLUMap, m_nFirstMaskIdx, m_nLastMaskIdx, m_fStaticNoiseVar, m_bNormalizeBins *)
Record config := { patch : Z; outer : Z; bins : Z; lut : list (option Z); first : Z; last : Z; noise : R; normalizing : bool }.
(* lines 37-38 *)
Definition win (cf : config) : Z := outer cf * 2 + patch cf.
Definition corr (cf : config) : Z := win cf - patch cf + 1.
(* lines 42-47 (the radii and bin counts of the mask are with lv::getLogPolarMask) *)
Definition accepted (cf : config) : bool :=
  (0 <? patch cf) && (patch cf mod 2 =? 1) && (0 <? outer cf) && (patch cf <=? outer cf) && (0 <? bins cf).
(* lines 214-215, 269-270 *)
Definition fits (cf : config) (im : image) : bool :=
  ((chans im =? 1) || (chans im =? 3)) && (win cf <=? cols im) && (win cf <=? rows im).
(* lines 97-99: the flag is 1 when the static noise level is compiled in *)
Definition says_dynamic : bool := true.

Definition zsum {A} (f : A -> Z) (l : list A) : Z := fold_left (fun s a => s + f a) l 0.
(* cv::matchTemplate(window, template, TM_SQDIFF) at (y,x): the window starts at (wy,wx), the template at (ty,tx) *)
Definition sqdiff (cf : config) (im : image) (wy wx ty tx y x : Z) : Z :=
  zsum (fun d => zsum (fun ch => let e := px im ch (ty + fst d) (tx + snd d) - px im ch (wy + y + fst d) (wx + x + snd d) in e * e) (zrange 0 (chans im)))
    (grid 0 (patch cf) 0 (patch cf)).
(* lines 245-247, 299-301: correlation map of the pixel (r,c), by raster index *)
Definition corr_map (cf : config) (im : image) (r c i : Z) : Z :=
  sqdiff cf im (r - win cf / 2) (c - win cf / 2) (r - patch cf / 2) (c - patch cf / 2) (i / corr cf) (i mod corr cf).

(* lines 257-260, 311-314: None stands for the largest float *)
Definition temp : Type := Z -> option Z.
Definition lower (old : option Z) (v : Z) : option Z := match old with None => Some v | Some o => Some (Z.min o v) end.
Definition tstep (cf : config) (cm : Z -> Z) (t : temp) (i : Z) : temp :=
  match nth_error (lut cf) (Z.to_nat i) with
  | Some (Some b) => fun k => if k =? b then lower (t k) (cm i) else t k
  | _ => t
  end.
Definition temp_desc (cf : config) (cm : Z -> Z) : temp :=
  fold_left (tstep cf cm) (zrange (first cf) (last cf - first cf + 1)) (fun _ => None).

Open Scope R_scope.
Definition float_max : R := (2 ^ 24 - 1) * 2 ^ 104.
(* lines 249, 261-262: the bins of one pixel *)
Definition bin_value (cf : config) (t : option Z) : R :=
  exp (match t with None => float_max | Some v => IZR v end * (-1 / noise cf)).
Definition desc_of (cf : config) (im : image) (r c b : Z) : R := bin_value cf (temp_desc cf (corr_map cf im r c) b).

(* memory of the output, None where nothing was written since it was allocated *)
Definition memory : Type := Z -> option R.
Definition fresh : memory := fun _ => None.
(* std::fill_n *)
Definition fill (m : memory) (at_ count : Z) (v : R) : memory := fun i => if (at_ <=? i)%Z && (i <? at_ + count)%Z then Some v else m i.
(* cv::exp into a row header at that address *)
Definition store (cf : config) (m : memory) (at_ : Z) (d : Z -> R) : memory :=
  fun i => if (at_ <=? i)%Z && (i <? at_ + bins cf)%Z then Some (d (i - at_)%Z) else m i.
(* oDescriptors.ptr<float>(row,col) *)
Definition addr (cf : config) (im : image) (r c : Z) : Z := ((r * cols im + c) * bins cf)%Z.

(* lines 323-338: ssdescs_norm; reading a bin that was never written leaves nothing known about its descriptor *)
Definition rsum {A} (f : A -> R) (l : list A) : R := fold_right (fun a s => f a + s) 0 l.
Definition known (m : memory) (at_ n : Z) : bool := forallb (fun k => match m (at_ + k)%Z with None => false | Some _ => true end) (zrange 0 n).
Definition value (m : memory) (i : Z) : R := match m i with None => 0 | Some v => v end.
Definition l2 (m : memory) (at_ n : Z) : R := sqrt (rsum (fun k => value m (at_ + k)%Z * value m (at_ + k)%Z) (zrange 0 n)).
Definition norm_step (cf : config) (m : memory) (d : Z) : memory :=
  let at_ := (d * bins cf)%Z in
  fun i => if (at_ <=? i)%Z && (i <? at_ + bins cf)%Z then
    if known m at_ (bins cf) then
      if Rlt_dec (/ 1000000) (l2 m at_ (bins cf)) then Some (value m i / l2 m at_ (bins cf)) else Some (sqrt (1 / IZR (bins cf)))
    else None
  else m i.
Definition norm_all (cf : config) (descs : Z) (m : memory) : memory := fold_left (norm_step cf) (zrange 0 descs) m.
Definition finish (cf : config) (descs : Z) (m : memory) : memory := if normalizing cf then norm_all cf descs m else m.

(* lines 290-318: one row of the dense variant *)
Definition dense_row (cf : config) (im : image) (m : memory) (r : Z) : memory :=
  let w := (win cf / 2)%Z in
  let m := fill m (addr cf im r 0) (bins cf * w) 0 in
  let m := fill m (addr cf im r (cols im - w)) (bins cf * w) 0 in
  fold_left (fun m c => store cf m (addr cf im r c) (desc_of cf im r c)) (zrange w (cols im - w - w)) m.
(* lines 268-321: None when an assertion fails *)
Definition dense (cf : config) (im : image) : option memory :=
  if negb (fits cf im) then None else
  let w := (win cf / 2)%Z in
  let m := fill fresh (addr cf im 0 0) (bins cf * w * cols im) 0 in
  let m := fill m (addr cf im (rows im - w) 0) (bins cf * w * cols im) 0 in
  Some (finish cf (rows im * cols im) (fold_left (dense_row cf im) (zrange w (rows im - w - w)) m)).
(* lines 213-266 with bGenDescMap; the inner None: the output is released *)
Definition keyed_map (cf : config) (im : image) (keys : list (Z * Z)) : option (option memory) :=
  if negb (fits cf im) then None else
  match keys with
  | [] => Some None
  | _ => Some (Some (finish cf (rows im * cols im)
           (fold_left (fun m k => store cf m (addr cf im (fst k) (snd k)) (desc_of cf im (fst k) (snd k))) keys fresh)))
  end.
(* the same without bGenDescMap: one row for each keypoint *)
Definition keyed_rows (cf : config) (im : image) (keys : list (Z * Z)) : option (option memory) :=
  if negb (fits cf im) then None else
  match keys with
  | [] => Some None
  | _ => Some (Some (finish cf (Z.of_nat (length keys))
           (snd (fold_left (fun s k => (fst s + 1, store cf (snd s) (fst s * bins cf) (desc_of cf im (fst k) (snd k)))%Z) keys (0%Z, fresh)))))
  end.
(* lines 188-211 and LSS.hpp: the distance of two descriptors *)
Definition distance (n : Z) (d e : Z -> R) : R := sqrt (rsum (fun k => (d k - e k) * (d k - e k)) (zrange 0 n)).
