(* Affinity maps of two rectified images or descriptor maps: lv::computeImageAffinity and lv::computeDescriptorAffinity (without CUDA), modules/imgproc/src/imgproc.cpp lines 361-415 and 417-549.
   Values are reals. The mutual information and earth mover's scores are parameters. Iterations of the parallel loops write different entries and are taken in order. *)
From Coq Require Import ZArith Reals List Bool.
From Verif Require Import Lib.Grid.
Import ListNotations.
Open Scope Z_scope.

Definition image : Type := Z -> Z -> R.
(* an empty region of interest takes everything *)
Definition roi : Type := option (Z -> Z -> bool).
Definition off (m : roi) (r c : Z) : bool := match m with None => false | Some f => negb (f r c) end.
Definition cell : Type := Z * Z * nat.
Definition cell_eqb (a b : cell) : bool := (fst (fst a) =? fst (fst b)) && (snd (fst a) =? snd (fst b)) && (snd a =? snd b)%nat.
Definition affmap : Type := cell -> R.
Definition put (m : affmap) (i : cell) (v : R) : affmap := fun j => if cell_eqb j i then v else m j.
Definition blank : affmap := fun _ => (-1)%R.

(* oImage(cv::Rect(x,y,n,n)), by positions in the window *)
Definition window (im : image) (y x : Z) : image := fun i j => im (y + i) (x + j).
(* cv::norm(a,b,cv::NORM_L2) of n x n windows *)
Definition ssd (n : Z) (a b : image) : R := sqrt (fold_left (fun s p => s + (a (fst p) (snd p) - b (fst p) (snd p)) * (a (fst p) (snd p) - b (fst p) (snd p)))%R (grid 0 n 0 n) 0%R).
(* line 407 *)
Definition mi_score (mi : image -> image -> R) (a b : image) : R := Rmax (1 - mi a b) 0.
(* line 385: the entries that are there *)
Definition image_dims (rows cols n : Z) (offs : list Z) : Z * Z * nat := (rows - n / 2 * 2, cols - n / 2 * 2, length offs).
(* lines 386-414 *)
Definition image_affinity (rows cols n : Z) (offs : list Z) (roi1 roi2 : roi) (dist : image -> image -> R) (im1 im2 : image) : affmap :=
  let rad := n / 2 in
  fold_left (fun m i =>
    let r := fst (fst i) in
    let c := snd (fst i) in
    let o := c + nth (snd i) offs 0 in
    if off roi1 r c || (o <? rad) || (cols - rad <=? o) || off roi2 r o then m
    else put m (r - rad, c - rad, snd i) (dist (window im1 (r - rad) (c - rad)) (window im2 (r - rad) (o - rad))))
    (list_prod (grid rad (rows - 2 * rad) rad (cols - 2 * rad)) (seq 0 (length offs))) blank.

(* cv::norm(a,b,cv::NORM_L2) of descriptors (line 498) *)
Definition l2 (a b : list R) : R := sqrt (fold_left (fun s p => s + (fst p - snd p) * (fst p - snd p))%R (combine a b) 0%R).
(* lines 486-519: oRawAffinity; dist p q is the distance from the first descriptor map at p to the second one at q *)
Definition raw_affinity (rows cols : Z) (offs : list Z) (roi1 roi2 : roi) (dist : Z * Z -> Z * Z -> R) : affmap :=
  fold_left (fun m p =>
    if off roi1 (fst p) (snd p) then m
    else fold_left (fun m k =>
      let o := snd p + nth k offs 0 in
      if (o <? 0) || (cols <=? o) || off roi2 (fst p) o then m else put m (fst p, snd p, k) (dist p (fst p, o))) (seq 0 (length offs)) m)
    (grid 0 rows 0 cols) blank.
(* lines 533-543: the number of values in the patch and their sum *)
Definition patch (rows cols rad : Z) (raw : affmap) (r c : Z) (k : nat) : nat * R :=
  let y := Z.max (r - rad) 0 in
  let x := Z.max (c - rad) 0 in
  fold_left (fun a p => if Req_EM_T (raw (fst p, snd p, k)) (-1) then a else (S (fst a), (snd a + raw (fst p, snd p, k))%R))
    (grid y (Z.min (r + rad) (rows - 1) + 1 - y) x (Z.min (c + rad) (cols - 1) + 1 - x)) (O, 0%R).
(* lines 417-549 *)
Definition desc_affinity (rows cols n : Z) (offs : list Z) (roi1 roi2 : roi) (dist : Z * Z -> Z * Z -> R) : affmap :=
  let raw := raw_affinity rows cols offs roi1 roi2 dist in
  if n =? 1 then raw
  else fold_left (fun m i =>
    let a := patch rows cols (n / 2) raw (fst (fst i)) (snd (fst i)) (snd i) in
    if (fst a =? 0)%nat then m else put m i (snd a / INR (fst a))%R)
    (list_prod (grid 0 rows 0 cols) (seq 0 (length offs))) blank.
