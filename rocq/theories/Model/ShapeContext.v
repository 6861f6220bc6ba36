(* Shape context descriptors with absolute radii and no rotation invariance: modules/features2d/src/SC.cpp lines 28-79 (constructor), 212-312 (compute2, detectAndCompute),
   406-435 (scdesc_fill_contours) and 518-606 (scdesc_fill_desc_direct, without CUDA), and the radial part of lv::getLogPolarMask (Lienhart), modules/utils/src/opencv.cpp lines 50-77.
   Keypoints have integer coordinates here, and bins hold counts (what is added to the initial value of all bins). cv::findContours is not modelled: a shape comes with the points it found.
   The final normalization and the variants with relative radii or rotation invariance are not modelled. Positions are (row, column). *)
From Coq Require Import ZArith Reals List Bool.
From Verif Require Import Lib.Grid.
Import ListNotations.
Open Scope Z_scope.

(* an image, as the extractor sees it: size, non-zero pixels, contour points (a point is met once for each time the contour passes) *)
Record shape := { rows : Z; cols : Z; mask : Z -> Z -> bool; contour : list (Z * Z) }.
(* m_nOuterRadius, m_oAbsDescLUMap by offsets from its centre, m_oDilateKernel by offsets from its anchor *)
Record config := { outer : Z; lut : Z -> Z -> Z; kernel : Z -> Z -> bool }.

Definition within (s : shape) (p : Z * Z) : bool := (0 <=? fst p) && (fst p <? rows s) && (0 <=? snd p) && (snd p <? cols s).
(* line 413: cv::dilate; pixels outside the image count as zero *)
Definition near (cf : config) (s : shape) (p : Z * Z) : bool :=
  existsb (fun d => kernel cf (fst d) (snd d) && within s (fst p + fst d, snd p + snd d) && mask s (fst p + fst d) (snd p + snd d))
    (grid (- (outer cf + 2)) (2 * outer cf + 5) (- (outer cf + 2)) (2 * outer cf + 5)).

(* lines 568-572 *)
Definition bin (cf : config) (key pt : Z * Z) : option Z :=
  let row := fst pt - fst key + outer cf in
  let col := snd pt - snd key + outer cf in
  let n := 2 * outer cf + 1 in
  if (row <? 0) || (n <=? row) || (col <? 0) || (n <=? col) then None
  else let b := lut cf (row - outer cf) (col - outer cf) in if b =? -1 then None else Some b.
Definition bins : Type := Z -> Z.
Definition bump (d : bins) (b : Z) : bins := fun i => if i =? b then d i + 1 else d i.
(* lines 565-572 *)
Definition vote (cf : config) (s : shape) (key : Z * Z) (d : bins) : bins :=
  fold_left (fun d pt => match bin cf key pt with None => d | Some b => bump d b end) (contour s) d.

Definition same (p q : Z * Z) : bool := (fst p =? fst q) && (snd p =? snd q).
Definition descmap : Type := Z * Z -> bins.
(* lines 557-572 with a descriptor map; None: m_oDistMask is read outside of the image *)
Definition fill_map (cf : config) (s : shape) (keys : list (Z * Z)) : option descmap :=
  fold_left (fun m key => match m with
    | None => None
    | Some m => if negb (within s key) then None else if negb (near cf s key) then Some m
                else Some (fun q => if same q key then vote cf s key (m key) else m q)
    end) keys (Some (fun _ _ => 0)).
(* the same with one row for each keypoint *)
Definition fill_rows (cf : config) (s : shape) (keys : list (Z * Z)) : option (list bins) :=
  fold_left (fun m key => match m with
    | None => None
    | Some m => if negb (within s key) then None else Some (m ++ [if near cf s key then vote cf s key (fun _ => 0) else fun _ => 0])
    end) keys (Some []).

(* m_oCurrImageSize, m_oKeyPts, m_bUsingFullKeyPtMap *)
Record state := { size : Z * Z; keys : list (Z * Z); full : bool }.
Definition initial : state := {| size := (0, 0); keys := []; full := false |}.
Definition pixels (s : shape) : list (Z * Z) := grid 0 (rows s) 0 (cols s).
(* lines 221-240: compute2(image, descmap) *)
Definition dense (cf : config) (st : state) (s : shape) : state * option descmap :=
  let k := if negb (full st) || negb (same (size st) (rows s, cols s)) then pixels s else keys st in
  ({| size := (rows s, cols s); keys := k; full := true |}, fill_map cf s k).
(* lines 242-264: compute2(image, keypoints, descmap); without keypoints the contour points are taken. The inner None: the descriptor map is released *)
Definition keyed (cf : config) (st : state) (s : shape) (kp : list (Z * Z)) : state * option (option descmap) :=
  let k := match kp with [] => contour s | _ => kp end in
  ({| size := (rows s, cols s); keys := k; full := false |},
   match k with [] => Some None | _ => match fill_map cf s k with None => None | Some m => Some (Some m) end end).
(* lines 279-312: detectAndCompute; kp are the keypoints left by the mask, of those given or of the contour. The inner None: the descriptors are released *)
Definition detect (cf : config) (st : state) (s : shape) (kp : list (Z * Z)) : state * option (option (list bins)) :=
  match kp with
  | [] => ({| size := (rows s, cols s); keys := keys st; full := full st |}, Some None)
  | _ => ({| size := (rows s, cols s); keys := kp; full := false |},
          match fill_rows cf s kp with None => None | Some m => Some (Some m) end)
  end.
Inductive call := Dense (s : shape) | Keyed (s : shape) (kp : list (Z * Z)) | Detect (s : shape) (kp : list (Z * Z)).
Definition after (cf : config) (st : state) (c : call) : state :=
  match c with Dense s => fst (dense cf st s) | Keyed s kp => fst (keyed cf st s kp) | Detect s kp => fst (detect cf st s kp) end.
Definition run (cf : config) (cs : list call) : state := fold_left (after cf) cs initial.

(* opencv.cpp lines 52-55: the distances that end the radial bins, over the reals; the last bin is not widened *)
Definition bound (nb : nat) (outer inner : Z) (k : nat) : R :=
  ((Rpower (INR nb) (1 / INR nb) ^ (k + 1) - 1) / (INR nb - 1) * IZR outer + (if (k =? nb - 1)%nat then 0 else IZR inner))%R.
(* lines 62-65 *)
Fixpoint radial (nb : nat) (outer inner : Z) (d : R) (k fuel : nat) : option nat :=
  match fuel with
  | O => None
  | S f => if Rle_dec d (bound nb outer inner k) then Some k else radial nb outer inner d (S k) f
  end.
(* lines 56-70; ang is the angular bin. With one radial bin the bound is 0/0, which is NaN, and nothing is within *)
Definition lienhart (nb : nat) (outer inner : Z) (ang : Z -> Z -> Z) (dy dx : Z) : Z :=
  if (dy =? 0) && (dx =? 0) || (nb =? 1)%nat then -1
  else match radial nb outer inner (sqrt (IZR (dy * dy + dx * dx))) 0 nb with
       | None => -1
       | Some k => ang dy dx * Z.of_nat nb + (Z.of_nat nb - 1 - Z.of_nat k)
       end.
(* SC.cpp lines 52-56: a filled circle of radius m_nOuterRadius+2, taken as the disc *)
Definition disc (outer dy dx : Z) : bool := dy * dy + dx * dx <=? (outer + 2) * (outer + 2).
(* the extractor ShapeContext(inner, outer, angular, nb) *)
Definition extractor (nb : nat) (outer inner : Z) (ang : Z -> Z -> Z) : config :=
  {| outer := outer; lut := lienhart nb outer inner ang; kernel := disc outer |}.
