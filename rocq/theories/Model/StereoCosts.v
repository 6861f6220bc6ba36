(* The costs of the stereo graph of SegmMatcher (modules/imgproc/src/SegmMatcher.cpp): the table of pairwise costs, the
   pairs of neighbours, and the cost of each disparity of each pixel, as the shipped switches of the file select them
   (median distances on, occluded labels and background heuristics off, squared differences). Affinities, saliencies and
   weights are rational numbers and their products are exact (the code multiplies floats); costs are integers without an
   upper limit (the code uses int32). How affinities and saliencies are computed is in Model/Affinity.v. *)
From Coq Require Import ZArith QArith List Bool.
From Verif Require Import Lib.Grid Model.FusionTerms Model.StereoMoves.
Import ListNotations.
Local Open Scope Z_scope.

(* SegmMatcher.cpp:139-140 and the conversions of opengm.hpp:156: towards zero *)
Definition cost_cast (q : Q) : Z := Z.quot (Qnum q) (Zpos (Qden q)).

(* the inputs of the costs: affinities by map index and label, saliencies by map index, the shape of each pixel of the
   primary image and the median label of each shape, the ROI of the other camera, and the weight of each pair by the map
   index of its first pixel and its orientation (SegmMatcher.cpp:1371-1376: from a table of the gradient) *)
Record features := Features {
  img_aff : Z -> Z -> Q; shp_aff : Z -> Z -> Q; img_sal : Z -> Q; shp_sal : Z -> Q;
  shape : Z -> Z; medians : Z -> Z; other : Z -> bool; weight : Z -> bool -> Q }.

(* SegmMatcher.cpp:79-80 and 84 *)
Definition image_scale : Q := inject_Z 1000.
Definition shape_scale : Q := inject_Z 1000.
Definition median_scale : Z := 20.
Definition special_cost : Z := 10000.
Definition positive (q : Q) : Q := if Qle_bool q 0 then 0%Q else q.

(* SegmMatcher.cpp:1328-1352: one label: the costs so far, the total and the number of those of matched labels *)
Definition label_step (s : setup) (f : features) (i : Z) (acc : (Z -> Z) * Z * Z) (l : Z) : option ((Z -> Z) * Z * Z) :=
  let '(u, tot, n) := acc in
  let m := if negb (shape f i =? 0) && (medians f (shape f i) <? nreal s) then Z.abs (medians f (shape f i) - l) * median_scale else 0 in
  obind (offset_col s (col_of s i) l) (fun c =>
    if (0 <=? c) && (c <? cols s) && other f (row_of s i * cols s + c) then
      let v := m + cost_cast (img_aff f i l * positive (img_sal f i) * image_scale)%Q
                 + cost_cast (shp_aff f i l * positive (shp_sal f i) * shape_scale)%Q in
      Some (upd u l v, tot + v, n + 1)
    else Some (upd u l (Z.quot tot (n + 1)), tot, n)).

(* SegmMatcher.cpp:1305-1358: one pixel *)
Definition unary_costs (s : setup) (f : features) (i : Z) : option (Z -> Z) :=
  obind (ofold (label_step s f i) (zrange 0 (nreal s)) (fun _ => 0, 0, 0))
    (fun acc => Some (upd (upd (fst (fst acc)) (dontcare s) special_cost) (dontcare s + 1) special_cost)).

(* SegmMatcher.cpp:83 *)
Definition max_diff (s : setup) : Z := Z.max 10 (Z.quot (maxd s) 8).
Definition disparity (s : setup) (l : Z) : Z := mind s + l * disp_step.
(* SegmMatcher.cpp:1153-1179: the table that all pairs share; entries that are not written are zero *)
Definition pair_base (s : setup) (a b : Z) : Z :=
  if (a <? nreal s) && (b <? nreal s) then
    let d := Z.min (Z.abs (disparity s a - disparity s b)) (max_diff s) in d * d
  else if ((a =? dontcare s) && (b <? nreal s)) || ((a <? nreal s) && (b =? dontcare s)) then 10000
  else 0.

(* SegmMatcher.cpp:1090-1093: nodes are numbered in the order of the map *)
Definition graph_index (s : setup) (i : Z) : Z := count (inside s) (zrange 0 i).
(* SegmMatcher.cpp:1203-1233, and opengm.hpp:153-166 for the cost: the scaled entry of the table *)
Definition pair (s : setup) (f : features) (i : Z) (o : bool) (j : Z) : clique :=
  Clique [graph_index s i; graph_index s j] [i; j]
    (fun ls => match ls with [a; b] => cost_cast (weight f i o * inject_Z (pair_base s a b))%Q | _ => 0 end).
(* SegmMatcher.cpp:1196-1201 and 1234-1242: the pairs of a node of the graph; other pixels have none *)
Definition pairs (s : setup) (f : features) (i : Z) : list clique :=
  if negb ((0 <=? i) && (i <? rows s * cols s) && inside s i) then [] else
  (if (row_of s i + 1 <? rows s) && inside s (i + cols s) then [pair s f i false (i + cols s)] else []) ++
  (if (col_of s i + 1 <? cols s) && inside s (i + 1) then [pair s f i true (i + 1)] else []).

(* the graph that the moves work on: the geometry of [s] with these costs *)
Definition stereo_model (s : setup) (f : features) : setup :=
  Setup (rows s) (cols s) (mind s) (nreal s) (second s) (inside s)
    (fun i l => match unary_costs s f i with Some u => u l | None => 0 end)
    (pairs s f) (addt s) (remt s).

(* SegmMatcher.cpp:898-900 and 998-1000: what the constructor asks of the two regions *)
Definition accepts (s : setup) (f : features) : bool :=
  forallb (fun r => let n := count r (zrange 0 (rows s * cols s)) in (1 <? n) && (n <? rows s * cols s)) [inside s; other f].
