(* Keypoints with fractional coordinates: which ones are kept, and where their descriptors are computed and put. modules/features2d/src: LBSP.cpp lines 154-227 (compute with keypoints), 239-250,
   265-315 (compute2, detectAndCompute, reshapeDesc), 362-364 (validateKeyPoints), LSS.cpp lines 143-177, 217, 242-246, DASC.cpp lines 152-225, MI.cpp lines 95-154, and lv::validateKeyPoints,
   modules/utils/include/litiv/utils/opencv.hpp lines 1104-1117. From OpenCV: KeyPointsFilter::runByImageBorder and runByPixelsMask; a cv::Point made from a cv::Point2f is rounded to the nearest
   integer, ties to even. Coordinates are rational numbers (every float is one), a position is (row, column). *)
From Coq Require Import ZArith QArith Qround List Bool.
From Verif Require Import Lib.Grid.
Import ListNotations.
Open Scope Z_scope.

Record keypoint := { kx : Q; ky : Q }.
Definition at_pixel (r c : Z) : keypoint := {| kx := inject_Z c; ky := inject_Z r |}.

(* a C conversion to int *)
Definition trunc (q : Q) : Z := Z.quot (Qnum q) (Zpos (Qden q)).
(* saturate_cast<int>, without the saturation *)
Definition nearest (q : Q) : Z :=
  let f := Qfloor q in
  match (q - inject_Z f ?= 1 # 2)%Q with Lt => f | Gt => f + 1 | Eq => if Z.even f then f else f + 1 end.
(* std::round *)
Definition away (q : Q) : Z := if Qle_bool 0 q then Qfloor (q + (1 # 2)) else Qceiling (q - (1 # 2)).

(* KeyPointsFilter::runByImageBorder *)
Definition inside_rect (lo hi v : Z) : bool := (lo <=? v) && (v <? hi).
Definition run_by_border (rows cols b : Z) (kps : list keypoint) : list keypoint :=
  if b <=? 0 then kps
  else if (rows <=? b * 2) || (cols <=? b * 2) then []
  else filter (fun k => inside_rect b (cols - b) (nearest (kx k)) && inside_rect b (rows - b) (nearest (ky k))) kps.
(* KeyPointsFilter::runByPixelsMask *)
Definition mask_pos (k : keypoint) : Z * Z := (trunc (ky k + (1 # 2)), trunc (kx k + (1 # 2))).
Definition run_by_mask (mask : Z -> Z -> bool) (kps : list keypoint) : list keypoint := filter (fun k => mask (fst (mask_pos k)) (snd (mask_pos k))) kps.

(* LBSP.cpp lines 168-169, LSS.cpp lines 242-243, DASC.cpp lines 208-209: where the descriptor of a keypoint is computed *)
Definition place (k : keypoint) : Z * Z := (trunc (ky k), trunc (kx k)).
(* all pixels that the descriptor of half size b at a position needs are pixels of the image; where not, LBSP reads outside of the image (the check is made in debug builds only), LSS fails *)
Definition readable (rows cols b : Z) (p : Z * Z) : bool := inside_rect b (rows - b) (fst p) && inside_rect b (cols - b) (snd p).
(* detectAndCompute of LBSP and LSS: the keypoints that are left, and the position of each row; None: some position is not readable *)
Definition dense_keys (rows cols : Z) : list keypoint := map (fun p => at_pixel (fst p) (snd p)) (grid 0 rows 0 cols).
Definition compute_rows (rows cols b : Z) (kps : list keypoint) : option (list (Z * Z)) :=
  if forallb (fun k => readable rows cols b (place k)) kps then Some (map place kps) else None.
Definition detect (rows cols b : Z) (mask : option (Z -> Z -> bool)) (given : option (list keypoint)) : list keypoint * option (list (Z * Z)) :=
  let kps := match given with None => dense_keys rows cols | Some l => l end in
  let kps := run_by_border rows cols b kps in
  let kps := match mask with None => kps | Some m => run_by_mask m kps end in
  (kps, compute_rows rows cols b kps).
(* DASC.cpp lines 152-164: the keypoints that compute2 leaves to its caller *)
Definition dasc_keypoints (rows cols reach : Z) (kps : list keypoint) : list keypoint := run_by_border rows cols reach (dense_keys rows cols).

(* LSS.cpp lines 167-173, DASC.cpp lines 215-221: reshapeDesc; the width of the result, or None when it asserts *)
Definition reshape (height width descs : Z) : option Z :=
  if (0 <? height * width) && (descs =? height * width) then Some width else None.
(* LBSP.cpp lines 290-315: one channel puts a descriptor at the point of the keypoint (rounded), three channels at the truncated coordinates; None: written outside of the image *)
Definition lbsp_put (one_channel : bool) (k : keypoint) : Z * Z := if one_channel then (nearest (ky k), nearest (kx k)) else place k.
Definition outmap : Type := Z * Z -> Z.
Definition same (p q : Z * Z) : bool := (fst p =? fst q) && (snd p =? snd q).
Definition lbsp_reshape (one_channel : bool) (rows cols : Z) (kps : list keypoint) (descs : list Z) : option outmap :=
  fold_left (fun m kd => match m with
    | None => None
    | Some m => let p := lbsp_put one_channel (fst kd) in
                if inside_rect 0 rows (fst p) && inside_rect 0 cols (snd p) then Some (fun q => if same q p then snd kd else m q) else None
    end) (combine kps descs) (Some (fun _ => 0)).

(* MI.cpp lines 152-154 *)
Definition mi_validate (rows cols h w : Z) (kps : list keypoint) : list keypoint := run_by_border rows cols (Z.max w h) kps.
(* MI.cpp lines 103-105, 125-127: false when an assertion fails *)
Definition mi_accepts (rows cols h w : Z) (k : keypoint) : bool :=
  let y := away (ky k) - h / 2 in let x := away (kx k) - w / 2 in
  inside_rect 0 rows y && inside_rect 0 cols x && inside_rect 0 rows (y + h - 1) && inside_rect 0 cols (x + w - 1).

(* opencv.hpp lines 1104-1117 with a non-empty ROI; None: the ROI is read outside of its bounds *)
Definition qlt (a b : Q) : bool := negb (Qle_bool b a).
Definition in_bounds (rows cols : Z) (k : keypoint) : bool :=
  Qle_bool 0 (kx k) && qlt (kx k) (inject_Z cols) && Qle_bool 0 (ky k) && qlt (ky k) (inject_Z rows).
Definition validate (rows cols : Z) (roi : Z -> Z -> Z) (kps : list keypoint) : option (list keypoint) :=
  fold_right (fun k rest => match rest with
    | None => None
    | Some l => if in_bounds rows cols k then
        let y := nearest (ky k) in let x := nearest (kx k) in
        if inside_rect 0 rows y && inside_rect 0 cols x then Some (if 0 <? roi y x then k :: l else l) else None
      else Some l
    end) (Some []) kps.
