(* modules/imgproc/src/EdgeDetectorCanny.cpp and include/litiv/imgproc/EdgeDetectorCanny.hpp: the edge masks and the confidence maps of EdgeDetectorCanny.
   cv::Canny is modelled from the squared gradient magnitudes and the pixels that pass its suppression of non-maxima, which are given (blur, Sobel operator and suppression are
   not modelled); cv::normalize by its definition, over rational numbers. Thresholds and factors are rational numbers. *)
From Coq Require Import ZArith QArith Qround Qminmax List Bool.
From Verif Require Import Lib.Grid Model.KeyPoints.
Import ListNotations.
Open Scope Z_scope.

Record image := Image { rows : Z; cols : Z; mag : Z * Z -> Z; peak : Z * Z -> bool }.
Definition pixels (i : image) : list (Z * Z) := grid 0 (rows i) 0 (cols i).
Definition touching (p q : Z * Z) : bool := (Z.abs (fst p - fst q) <=? 1) && (Z.abs (snd p - snd q) <=? 1).

(* cv::Canny with L2gradient: thresholds are cut, squared and rounded down *)
Definition squared (t : Q) : Z := if Qle_bool t 0 then Qfloor t else Qfloor (Qmin t 32767 * Qmin t 32767).
Definition candidate (i : image) (low : Z) (p : Z * Z) : bool := peak i p && (low <? mag i p).
(* hysteresis: candidates next to edges become edges; each round adds one pixel at least or changes nothing *)
Definition grow (i : image) (low : Z) (s : list (Z * Z)) : list (Z * Z) := filter (fun p => candidate i low p && existsb (touching p) s) (pixels i).
Fixpoint rounds (n : nat) (i : image) (low : Z) (s : list (Z * Z)) : list (Z * Z) := match n with O => s | S k => rounds k i low (grow i low s) end.
Definition canny (i : image) (low high : Z) : list (Z * Z) :=
  rounds (length (pixels i)) i low (filter (fun p => candidate i low p && (high <? mag i p)) (pixels i)).

(* EdgeDetectorCanny.cpp:30-34: the size of the kernel that the image is blurred with, if any *)
Definition default_size (sigma : Q) : Z := 8 * Qceiling sigma.
Definition half_size (sigma : Q) : Z := Z.quot (default_size sigma - 1) 2.
Definition kernel_size (sigma : Q) : option Z := if Qle_bool sigma 0 then None else Some (half_size sigma).

(* EdgeDetectorCanny.cpp:38-42 with EdgeDetectorCanny.hpp:25-29; [f] is the factor of the lower threshold, in (0,1) (EdgeDetectorCanny.cpp:23) *)
Definition default_threshold : Q := 100.
Definition apply_threshold (f : Q) (i : image) (t : Q) : list (Z * Z) :=
  let t := if Qle_bool 0 t then t else default_threshold in canny i (squared (t * f)) (squared t).
Definition marked (p : Z * Z) (l : list (Z * Z)) : bool := existsb (fun q => (fst p =? fst q) && (snd p =? snd q)) l.

(* EdgeDetectorCanny.cpp:50-54: 8-bit sums *)
Definition votes (f : Q) (i : image) (p : Z * Z) : Z :=
  fold_left (fun v k => Z.min 255 (v + (if marked p (apply_threshold f i (inject_Z k)) then 255 else 0) / 255)) (zrange 0 255) 0.
(* EdgeDetectorCanny.cpp:55 *)
Definition least (l : list Z) : Z := match l with [] => 0 | x :: r => fold_left Z.min r x end.
Definition greatest (l : list Z) : Z := match l with [] => 0 | x :: r => fold_left Z.max r x end.
Definition normalised (v : Z * Z -> Z) (ps : list (Z * Z)) (p : Z * Z) : Z :=
  let lo := least (map v ps) in let hi := greatest (map v ps) in
  if hi =? lo then 0 else nearest (inject_Z (v p - lo) * (255 / inject_Z (hi - lo)))%Q.
Definition confidence (f : Q) (i : image) (p : Z * Z) : Z := normalised (votes f i) (pixels i) p.
