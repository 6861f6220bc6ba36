(* The costs of the resegmentation graph of SegmMatcher (modules/imgproc/src/SegmMatcher.cpp): the shape distances of the masks
   (calcShapeDistFeatures, lines 2520-2542) and what updateResegmModel (lines 1827-1956, 1970-2047, 2126-2153) makes of them, of the densities of
   the colour models, of the gradients and of the disparities. Over the real numbers instead of float and double; costs are integers
   without an upper limit (the code uses int32). cv::distanceTransform (precise, L2) and cv::GaussianBlur (3x3, borders reflected
   without repetition) are modelled by their definitions. Two layers, as in Model/ResegmGraph.v. *)
From Coq Require Import ZArith Reals List Bool.
From Verif Require Import Lib.Grid Model.ResegmGraph.
Import ListNotations.
Open Scope R_scope.

(* SegmMatcher.cpp:139-140: towards zero *)
Definition cost_cast (x : R) : Z := if Rle_dec 0 x then Int_part x else (- Int_part (- x))%Z.

(* cv::distanceTransform: the square of the distance to the nearest pixel of the image that passes [test]; None when there is none *)
Definition square_to (r c : Z) (p : Z * Z) : Z := ((fst p - r) * (fst p - r) + (snd p - c) * (snd p - c))%Z.
Definition nearest (rows cols : Z) (test : Z -> Z -> bool) (r c : Z) : option Z :=
  fold_left (fun best p => if test (fst p) (snd p) then Some (match best with Some d => Z.min d (square_to r c p) | None => square_to r c p end) else best)
    (grid 0 rows 0 cols) None.
(* lines 2528-2533 and 2535-2540, with SEGMMATCH_SHPDIST_PX_MAX_CST of line 78. Without any pixel, the distance is so large that its
   exponential is 0; the quotient is infinite or (before OpenCV 4) 0, then -1, and replaced either way *)
Definition px_max : R := 10.
Definition shape_dist (d : option Z) : R :=
  match d with
  | None => px_max
  | Some d => Rmin (/ exp (- (1 / px_max) * sqrt (IZR d)) - 1) px_max
  end.
Definition fg_dist (rows cols : Z) (mask : Z -> Z -> bool) (r c : Z) : R := shape_dist (nearest rows cols mask r c).
Definition bg_dist (rows cols : Z) (mask : Z -> Z -> bool) (r c : Z) : R := shape_dist (nearest rows cols (fun y x => negb (mask y x)) r c).

(* lines 1824-1825 and 1856-1857 *)
Definition capped (d : R) : R := Rmin (Rmax d (/ 10000000000)) 1.
(* the borders of cv::GaussianBlur *)
Definition reflect (n i : Z) : Z := if (n =? 1)%Z then 0%Z else if (i <? 0)%Z then (- i)%Z else if (n <=? i)%Z then (2 * n - 2 - i)%Z else i.
(* lines 1861-1862: the kernel of size 3 is 1/4, 1/2, 1/4. The image has [n] rows: those of both layers *)
Definition blur (n m : Z) (f : Z -> Z -> R) (r c : Z) : R :=
  let h y := / 4 * f y (reflect m (c - 1)) + / 2 * f y c + / 4 * f y (reflect m (c + 1)) in
  / 4 * h (reflect n (r - 1)) + / 2 * h r + / 4 * h (reflect n (r + 1)).
(* lines 1826, 1863-1866, 1935-1936 and 73; [r] is a row of both layers *)
Definition color_cost (n m : Z) (density : Z -> Z -> R) (r c : Z) : Z :=
  cost_cast (ln (blur n m (fun y x => capped (density y x)) r c) * (- 1 / ln 2) * 30).

(* the cameras have the numbers 0 and 1, the layers too. [dens_fg cam r c] has the rows of both layers; [grad layer cam horizontal r c];
   [tdiff cam r c] is the difference along the motion of a pixel of the older layer; the disparity labels of both layers *)
Record inputs := Inputs { nrows : Z; ncols : Z; nreal : Z; mind : Z; roi : Z -> Z -> Z -> bool; mask : Z -> Z -> Z -> Z -> bool;
  dens_fg : Z -> Z -> Z -> R; dens_bg : Z -> Z -> Z -> R; grad : Z -> Z -> bool -> Z -> Z -> Z; tdiff : Z -> Z -> Z -> Z; disp : Z -> Z -> Z -> Z -> Z }.

(* lines 1971-1973 with 2621-2635: the pixel of the other camera that a disparity label leads to *)
Definition partner (v : inputs) (layer cam r c : Z) : option Z :=
  let l := disp v layer cam r c in
  if (l <? nreal v)%Z then
    let x := if (cam =? 0)%Z then (c - (mind v + l))%Z else (c + (mind v + l))%Z in
    if (0 <=? x)%Z && (x <? ncols v)%Z && roi v (1 - cam)%Z r x then Some x else None
  else None.
(* lines 77, 79, 1933-1944, 1973-1979, 2015-2016: the costs of background and foreground *)
Definition dist_scale : R := 200.
Definition inter_scale : R := / 2.
Definition fg_cost (v : inputs) (layer cam r c : Z) : Z :=
  match partner v layer cam r c with
  | Some x => (cost_cast (fg_dist (nrows v) (ncols v) (mask v layer cam) r c * dist_scale) + color_cost (2 * nrows v) (ncols v) (dens_fg v cam) (layer * nrows v + r) c
              + cost_cast (fg_dist (nrows v) (ncols v) (mask v layer (1 - cam)) r x * dist_scale * inter_scale))%Z
  | None => 100%Z
  end.
Definition bg_cost (v : inputs) (layer cam r c : Z) : Z :=
  match partner v layer cam r c with
  | Some x => (cost_cast (bg_dist (nrows v) (ncols v) (mask v layer cam) r c * dist_scale) + color_cost (2 * nrows v) (ncols v) (dens_bg v cam) (layer * nrows v + r) c
              + cost_cast (bg_dist (nrows v) (ncols v) (mask v layer (1 - cam)) r x * dist_scale * inter_scale))%Z
  | None => 0%Z
  end.

(* lines 85-86 and 986-988 *)
Definition grad_factor (g : Z) : R := Rmax (exp (IZR (30 - g) / 30) - / 2) 0.
(* lines 81, 1989-1999 and 2029-2032: what different labels of a pixel and the next one to the right or below cost *)
Definition pair_weight (v : inputs) (layer cam : Z) (horizontal : bool) (r c : Z) : Z :=
  let here := grad_factor (grad v layer cam horizontal r c) in
  cost_cast (match partner v layer cam r c with
             | Some x => Rmin here (grad_factor (grad v layer (1 - cam) horizontal r x) / inter_scale)
             | None => here
             end * 200).
(* lines 2132-2153 *)
Definition temporal_weight (v : inputs) (cam r c : Z) : Z := cost_cast (grad_factor (tdiff v cam r c) * 200).

(* the scene of Model/ResegmGraph.v that has these costs; label 1 is the foreground *)
Definition scene_of (v : inputs) (motion : Z -> Z -> Z -> Z * Z) (frames : Z) : scene :=
  let at_ {A} (f : Z -> Z -> Z -> Z -> A) (i : Z) : A :=
    let q := (i / ncols v / nrows v)%Z in f (q mod 2)%Z (q / 2)%Z ((i / ncols v) mod nrows v)%Z (i mod ncols v)%Z in
  Scene (nrows v) (ncols v) (fun cam r c => roi v cam r c) motion (fun i l => if (l =? 1)%Z then at_ (fg_cost v) i else at_ (bg_cost v) i)
    (at_ (fun la ca => pair_weight v la ca false)) (at_ (fun la ca => pair_weight v la ca true)) (at_ (fun _ ca => temporal_weight v ca)) frames.
