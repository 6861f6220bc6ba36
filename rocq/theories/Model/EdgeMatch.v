(* The match of edge pixels with those of a ground truth as an assignment problem: modules/datasets/src/impl/BSDS500.cpp, build with USE_BSDS500_BENCHMARK.
   Masks are functions of (row, column); the squared distance is an integer, so dMaxDistSqr is its integer part; r is nMaxDist. double(u) > dMaxDist never holds where u*u+v*v <= dMaxDistSqr.
   The lists of outliers of kOfN (Model/KOfN.v) are parameters, as is what the solver returns. *)
From Coq Require Import ZArith List Bool.
From Verif Require Import Lib.Grid.
Import ListNotations.
Open Scope Z_scope.

Definition pixel := (Z * Z)%type.
Definition edge := (Z * Z * Z)%type.
Record task := { rows : Z; cols : Z; radius : Z; dist2 : Z; segm : pixel -> bool; gt : pixel -> bool }.

Definition all_px (t : task) : list pixel := grid 0 (rows t) 0 (cols t).
(* lines 119-128: the pixels (i+u,j+v) that are looked at from (i,j) *)
Definition near (t : task) (q : pixel) : list pixel :=
  filter (fun p => (0 <=? fst p) && (fst p <? rows t) && (0 <=? snd p) && (snd p <? cols t) && ((fst p - fst q) * (fst p - fst q) + (snd p - snd q) * (snd p - snd q) <=? dist2 t))
    (map (fun d => (fst q + fst d, snd q + snd d)) (grid (- radius t) (2 * radius t + 1) (- radius t) (2 * radius t + 1))).
Definition pixel_eqb (p q : pixel) : bool := (fst p =? fst q) && (snd p =? snd q).
(* lines 116-136: the pixels marked in oMatchable_GT and oMatchable_SEGM *)
Definition matchable_gt (t : task) (q : pixel) : bool := gt t q && existsb (segm t) (near t q).
Definition matchable_segm (t : task) (p : pixel) : bool := segm t p && existsb (fun q => gt t q && existsb (pixel_eqb p) (near t q)) (all_px t).
(* lines 138-159: voNodeToPxLUT, and oPxToNodeLUT as the place in it (the length if it is not there, where the code has -1) *)
Definition nodes_segm (t : task) : list pixel := filter (matchable_segm t) (all_px t).
Definition nodes_gt (t : task) : list pixel := filter (matchable_gt t) (all_px t).
Fixpoint place (p : pixel) (l : list pixel) : Z := match l with [] => 0 | q :: l => if pixel_eqb p q then 0 else 1 + place p l end.
(* line 233: rint(sqrt(d) * 100), the integer nearest to the root of 10000 d *)
Definition weight (d : Z) : Z := let x := 10000 * d in let a := Z.sqrt x in if a * a + a <? x then a + 1 else a.
(* lines 167-194 *)
Definition real_edges (t : task) : list edge :=
  flat_map (fun q => map (fun p => (place p (nodes_segm t), place q (nodes_gt t), weight ((fst p - fst q) * (fst p - fst q) + (snd p - snd q) * (snd p - snd q)))) (filter (matchable_segm t) (near t q)))
    (filter (matchable_gt t) (all_px t)).

(* lines 202-204, degree = 6 *)
Definition degree_side (s : Z) : Z := Z.max 0 (Z.min 6 (s - 1)).
Definition degree_mix (s g : Z) : Z := Z.min 6 (Z.min s g).
Record outliers := { out_segm : Z -> list Z; out_gt : Z -> list Z; out_mix : Z -> list Z }.
Definition skip (i j : Z) : Z := if i <=? j then j + 1 else j.
(* lines 224-292, nodes from 0: s and g nodes, w the weight of outliers *)
Definition segm_outliers (s g w : Z) (o : outliers) : list edge := flat_map (fun i => map (fun j => (i, g + skip i j, w)) (out_segm o i)) (zrange 0 s).
Definition gt_outliers (s g w : Z) (o : outliers) : list edge := flat_map (fun j => map (fun i => (s + skip j i, j, w)) (out_gt o j)) (zrange 0 g).
Definition mixed (s g w : Z) (o : outliers) : list edge := flat_map (fun i => map (fun j => if s <? g then (s + i, g + j, w) else (s + j, g + i, w)) (out_mix o i)) (zrange 0 (Z.max s g)).
Definition overlay_segm (s g w : Z) : list edge := map (fun i => (i, g + i, w * 100)) (zrange 0 s).
Definition overlay_gt (s g w : Z) : list edge := map (fun i => (s + i, i, w * 100)) (zrange 0 g).
Definition graph (s g w : Z) (o : outliers) (real : list edge) : list edge :=
  real ++ segm_outliers s g w o ++ gt_outliers s g w o ++ mixed s g w o ++ overlay_segm s g w ++ overlay_gt s g w.
(* lines 211-217: the rows of oGraph *)
Definition graph_rows (s g : Z) (real : list edge) : Z := Z.of_nat (length real) + degree_side s * s + degree_side g * g + degree_mix s g * Z.max s g + (s + g).
(* lines 348-364: the pairs of nodes recorded of what the solver returned *)
Definition recorded (s g : Z) (sol : list edge) : list edge := filter (fun e => (fst (fst e) <? s) && (snd (fst e) <? g)) sol.
(* line 363: nIndivTP, and line 362: the pixels set in oSegmTPAccumulator *)
Definition indiv_tp (t : task) (sol : list edge) : Z := Z.of_nat (length (recorded (Z.of_nat (length (nodes_segm t))) (Z.of_nat (length (nodes_gt t))) sol)).
Definition tp_pixels (t : task) (sol : list edge) : list pixel :=
  map (fun e => nth (Z.to_nat (fst (fst e))) (nodes_segm t) (0, 0)) (recorded (Z.of_nat (length (nodes_segm t))) (Z.of_nat (length (nodes_gt t))) sol).
