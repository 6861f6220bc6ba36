(* DASC descriptors with the recursive filter: modules/features2d/src/DASC.cpp lines 28-55 (tables), 261-368 (recursFilter, dasc_rf_impl) and lv::localDiff,
   modules/features2d/include/litiv/features2d.hpp lines 30-47, over the real numbers instead of float. An image is a function of row and column;
   it is the converted, possibly smoothed image of lines 287-297. The guided filter variant is not modelled. *)
From Coq Require Import ZArith Reals List Bool.
From Verif Require Import Lib.Grid.
Import ListNotations.
Open Scope R_scope.

Definition image : Type := Z -> Z -> R.

(* lines 28-37 *)
Definition rp1 : list (Z * Z) := ([
   (5,-9); (-14,-5); (10,0); (-12,4); (-4,-6); (-13,-7); (-6,-11); (5,14); (3,9); (10,11); (10,-2); (15,3); (6,5); (14,5); (14,-5); (-9,-5); (8,10);
   (-8,-10); (-3,-15); (-11,6); (12,4); (9,3); (-7,13); (3,-15); (-15,3); (13,0); (4,-12); (-6,-11); (12,-2); (-4,-12); (-5,14); (-3,-15); (10,-11);
   (11,10); (-10,0); (-11,-10); (-9,5); (8,6); (-12,-4); (13,7); (15,0); (-15,3); (5,14); (-11,10); (5,-6); (-13,-7); (3,-15); (-9,-5); (-6,-8);
   (0,13); (-7,13); (-9,3); (0,15); (11,-6); (10,11); (5,14); (-11,10); (14,-5); (8,10); (0,15); (-5,14); (11,6); (8,-6); (-7,13); (-13,0); (-11,-6);
   (-8,-13); (2,12); (-7,13); (4,6); (-10,-11); (-6,-11); (-10,-11); (5,-9); (-14,-5); (-3,-15); (-4,12); (10,-2); (13,7); (-15,0); (10,2); (5,14);
   (-5,-14); (-13,0); (5,-14); (0,5); (10,8); (-12,4); (-12,4); (-10,8); (-15,-3); (14,5); (-10,-8); (15,0); (-2,-10); (-7,1); (0,15); (14,-5);
   (3,-9); (-13,0); (0,15); (2,12); (-10,8); (13,7); (-5,-6); (5,14); (15,3); (-8,-13); (-9,3); (-5,9); (5,-9); (0,-13); (6,-11); (15,3); (0,-15);
   (13,7); (6,11); (-2,10); (-15,-3); (6,-8); (11,-6); (-14,5); (-5,-6); (3,-7); (-15,0); (6,-8); (14,5); (0,13)
  ])%Z.
(* lines 39-48 *)
Definition rp2 : list (Z * Z) := ([
   (0,-13); (1,7); (12,2); (-10,-11); (-3,-9); (0,15); (-11,10); (-15,-3); (-2,-12); (-15,3); (5,14); (-12,2); (15,0); (-11,-6); (-8,-6); (-2,10);
   (0,-8); (-8,6); (-4,-12); (-9,-5); (10,-8); (5,-6); (11,10); (-13,0); (12,2); (-8,-13); (-11,10); (10,8); (-10,11); (0,-8); (4,12); (11,10);
   (11,-10); (6,-11); (-3,9); (-11,6); (-14,5); (8,13); (0,-15); (4,12); (14,5); (5,14); (-10,-2); (13,0); (-15,-3); (-3,15); (7,-3); (-14,5);
   (13,7); (4,-6); (13,-8); (-15,3); (0,15); (-14,-5); (-14,-5); (14,-5); (5,-9); (11,-6); (-3,15); (-10,-8); (-3,15); (14,5); (10,-2); (5,14);
   (-3,-15); (6,4); (0,15); (-5,14); (11,6); (-3,-7); (-5,14); (12,-4); (8,-13); (9,-3); (7,1); (-14,-5); (-8,-10); (8,10); (0,15); (-5,-14);
   (0,-15); (-8,6); (-7,-3); (8,6); (0,-10); (-7,-3); (-11,-10); (8,10); (10,11); (-15,0); (-11,6); (-2,10); (-12,2); (15,0); (-10,8); (10,-11);
   (3,-7); (-6,-8); (9,3); (5,-2); (8,10); (10,-2); (14,-5); (-10,-11); (-13,-7); (0,15); (-6,11); (-10,8); (5,9); (-3,15); (-8,-6); (-5,-14);
   (3,15); (12,-2); (-4,-12); (3,-4); (8,-13); (0,-13); (0,-10); (10,11); (-5,-6); (-13,7); (-8,-10); (-11,-10); (5,14); (8,-13); (8,10); (-15,-3)
  ])%Z.
(* lines 50-54: nRPAbsMax *)
Definition reach : Z := fold_left (fun m p => Z.max m (Z.max (Z.abs (fst p)) (Z.abs (snd p)))) (rp1 ++ rp2) 0%Z.
(* LOCAL_EPS *)
Definition eps : R := / 10000000000.

(* localDiff<1,0> and localDiff<0,1> *)
Definition diff_y (img : image) (r c : Z) : R := if (1 <=? r)%Z then img (r - 1)%Z c - img r c else 0.
Definition diff_x (img : image) (r c : Z) : R := if (1 <=? c)%Z then img r (c - 1)%Z - img r c else 0.

Record params := { sigma_s : R; sigma_r : R; iters : nat }.
(* line 69: what the constructor requires *)
Definition proper (p : params) : Prop := 0 < sigma_s p /\ 0 < sigma_r p /\ (0 < iters p)%nat.
(* lines 303-304 *)
Definition strength (p : params) (d : R) : R := 1 + sigma_s p / sigma_r p * Rabs d.
(* line 310 *)
Definition base (p : params) (i : nat) : R :=
  exp (- sqrt 2 / (sigma_s p * sqrt 3 * 2 ^ (iters p - (i + 1)) / sqrt (4 ^ iters p - 1))).
(* lines 311-316: the second one is stored transposed *)
Definition ref_h (p : params) (img : image) (i : nat) : image := fun r c => Rpower (base p i) (strength p (diff_x img r c)).
Definition ref_vt (p : params) (img : image) (i : nat) : image := fun c r => Rpower (base p i) (strength p (diff_y img r c)).

(* an assignment to one element *)
Definition put (g : image) (r c : Z) (v : R) : image := fun y x => if (y =? r)%Z && (x =? c)%Z then v else g y x.
(* lines 270-271 *)
Definition to_right (w : image) (r : Z) (g : image) (c : Z) : image := put g r c (g r c + w r c * (g r (c - 1)%Z - g r c)).
(* lines 272-273 *)
Definition to_left (w : image) (r : Z) (g : image) (c : Z) : image := put g r c (g r c + w r (c + 1)%Z * (g r (c + 1)%Z - g r c)).
(* lines 266-275: lTransfDomRecursFilter_H, in place *)
Definition filter_h (rows cols : Z) (w g : image) : image :=
  fold_left (fun g r => fold_left (to_left w r) (rev (zrange 0 (cols - 1))) (fold_left (to_right w r) (zrange 1 (cols - 1)) g)) (zrange 0 rows) g.
(* cv::transpose *)
Definition flip (g : image) : image := fun r c => g c r.
(* lines 276-281 *)
Definition recurs_filter (rows cols : Z) (n : nat) (wh wv : nat -> image) (g : image) : image :=
  fold_left (fun g i => flip (filter_h cols rows (wv i) (flip (filter_h rows cols (wh i) g)))) (seq 0 n) g.

(* lines 318-319, 339-341: filtered with the weights of the image described *)
Definition smooth (p : params) (rows cols : Z) (img g : image) : image := recurs_filter rows cols (iters p) (ref_h p img) (ref_vt p img) g.
Definition times (f g : image) : image := fun r c => f r c * g r c.
(* lines 326-338 *)
Definition inside (rows cols r c : Z) : bool := ((0 <=? r) && (r <? rows) && (0 <=? c) && (c <? cols))%Z.
Definition lookup (rows cols : Z) (img : image) (dr dc : Z) : image := fun r c => if inside rows cols (r + dr) (c + dc) then img (r + dr)%Z (c + dc)%Z else 0.
Definition lookup_mix (rows cols : Z) (img : image) (dr dc : Z) : image :=
  fun r c => if inside rows cols (r + dr) (c + dc) then img r c * img (r + dr)%Z (c + dc)%Z else 0.
(* lines 347-349. std::sqrt of a negative number is NaN, which is not above LOCAL_EPS; here it is 0, which is not either *)
Definition score (v1 v2 cov : R) : R :=
  let d := sqrt (v1 * v2) in if Rlt_dec eps d then Rmin (exp (- (1 - cov / d) * 2)) 1 else 1.
(* lines 342-354: the k-th entry at (r, c); the first row and the first column of the image do not count *)
Definition entry (p : params) (rows cols : Z) (img : image) (k : nat) (r c : Z) : R :=
  let a := nth k rp1 (0, 0)%Z in
  let b := nth k rp2 (0, 0)%Z in
  let dr := (fst b - fst a)%Z in
  let dc := (snd b - snd a)%Z in
  let y := (r + fst a)%Z in
  let x := (c + snd a)%Z in
  if ((0 <? y) && (y <? rows) && (0 <? x) && (x <? cols))%Z then
    let m := smooth p rows cols img img y x in
    let m2 := smooth p rows cols img (times img img) y x in
    let look := lookup rows cols img dr dc in
    let l := smooth p rows cols img look y x in
    let l2 := smooth p rows cols img (times look look) y x in
    let mix := smooth p rows cols img (lookup_mix rows cols img dr dc) y x in
    score (m2 - m * m) (l2 - l * l) (mix - m * l)
  else 0.
(* lines 356-366: the norm of each descriptor *)
Definition norm (v : list R) : R := sqrt (fold_left (fun s x => s + x * x) v 0).
Definition normalize (v : list R) : list R :=
  if Rlt_dec eps (norm v) then map (fun x => x / norm v) v else map (fun _ => sqrt (1 / INR (length v))) v.
Definition descriptor (p : params) (rows cols : Z) (img : image) (r c : Z) : list R :=
  normalize (map (fun k => entry p rows cols img k r c) (seq 0 (length rp1))).

(* validateROI, lines 227-234: the pixels left in a full region of interest *)
Definition validated (rows cols r c : Z) : bool := ((reach <=? r) && (r <? rows - reach) && (reach <=? c) && (c <? cols - reach))%Z.
