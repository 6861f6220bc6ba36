(* Superpixels as k-means over the 3x3 cells around each pixel, and CIE L*a*b*. *)
From Coq Require Import ZArith Reals List Bool.
From Verif Require Import Lib.Grid Spec.Affinity.
Import ListNotations.
Open Scope Z_scope.

(* the cells of a grid of h x w cells that touch the cell c, itself included, row by row *)
Definition cells_around (h w : Z) (c : Z * Z) : list (Z * Z) :=
  filter (fun e => (0 <=? fst e) && (fst e <? h) && (0 <=? snd e) && (snd e <? w)) (grid (fst c - 1) 3 (snd c - 1) 3).
(* the first of the closest candidates, closer than the limit *)
Definition closest (limit : R) (dist : Z -> R) (l : list Z) (k : Z) : Prop :=
  exists pre post, l = pre ++ k :: post /\ (dist k < limit)%R /\ (forall j, In j pre -> (dist k < dist j)%R) /\ (forall j, In j post -> (dist k <= dist j)%R).

Section Kmeans.
(* h x w pixels in cells of d x d; the cells are counted row by row, n in a row. val: the attributes of a pixel, dist: of a pixel and a centre *)
Context (h w d n m : Z) (val : Z * Z -> nat -> R) (dist : Z * Z -> (nat -> R) -> R).
Definition centres : Type := Z -> nat -> R.
Definition cell (q : Z * Z) : Z * Z := (fst q / d, snd q / d).
Definition number (c : Z * Z) : Z := fst c * n + snd c.
Definition members (lab : Z * Z -> Z) (k : Z) : list (Z * Z) := filter (fun q => lab q =? k) (grid 0 h 0 w).
(* one iteration: labels from the old centres, then new centres *)
Definition one_round (c : centres) (lab : Z * Z -> Z) (c' : centres) : Prop :=
  (forall q, In q (grid 0 h 0 w) -> closest 100000 (fun k => dist q (c k)) (map number (cells_around m n (cell q))) (lab q)) /\
  forall k a, 0 <= k < n * m -> (a < 5)%nat -> c' k a = match members lab k with [] => c k a | l => average (fun q => val q a) l end.
(* the first centres: the pixels in the middle of the cells, or the last of the image if the middle is outside *)
Definition starts (c : centres) : Prop :=
  forall i j, 0 <= i < m -> 0 <= j < n -> let q := (Z.min (i * d + d / 2) (h - 1), Z.min (j * d + d / 2) (w - 1)) in
    forall a, (a < 5)%nat -> c (number (i, j)) a = val q a.
Fixpoint kmeans (i : nat) (c : centres) (lab : Z * Z -> Z) (c' : centres) : Prop :=
  match i with O => False | S O => one_round c lab c' | S j => exists lab1 c1, one_round c lab1 c1 /\ kmeans j c1 lab c' end.
End Kmeans.

(* a pixel: its colour, column and row *)
Definition features (colour : Z * Z -> nat -> R) (q : Z * Z) (a : nat) : R :=
  match a with 3%nat => IZR (snd q) | 4%nat => IZR (fst q) | _ => colour q a end.
(* the distance of SLIC: of colours, and of positions relative to the size of a cell, with a weight *)
Definition slic_distance (d : Z) (weight : R) (colour : Z * Z -> nat -> R) (q : Z * Z) (c : nat -> R) : R :=
  sqrt (sum (fun a => (colour q a - c a)^2) [0%nat; 1%nat; 2%nat] + (weight / IZR d)^2 * sum (fun a => (features colour q a - c a)^2) [3%nat; 4%nat])%R.

(* CIE L*a*b* from the values relative to white; cube roots by their defining property *)
Definition cie (v : R) (r : R) : Prop := if Rlt_dec 0.008856 v then (0 < r /\ r * r * r = v)%R else (r = 7.787 * v + 0.13793)%R.
Definition lightness (v : R) (l : R) : Prop := if Rlt_dec 0.008856 v then exists r, (0 < r /\ r * r * r = v /\ l = 116 * r - 16)%R else (l = 903.3 * v)%R.
(* L*a*b* of a colour given by its X, Y and Z relative to white *)
Definition is_lab (x y z : R) (l a b : R) : Prop :=
  lightness y l /\ exists fx fy fz, cie x fx /\ cie y fy /\ cie z fz /\ (a = 500 * (fx - fy))%R /\ (b = 200 * (fy - fz))%R.
(* relative X, Y and Z of linear RGB, D65 *)
Definition rel_x (r g b : R) : R := ((0.412453 * r + 0.357580 * g + 0.180423 * b) / 0.950456)%R.
Definition rel_y (r g b : R) : R := (0.212671 * r + 0.715160 * g + 0.072169 * b)%R.
Definition rel_z (r g b : R) : R := ((0.019334 * r + 0.119193 * g + 0.950227 * b) / 1.088754)%R.
