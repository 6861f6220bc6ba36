(* The resegmentation graph of SegmMatcher (modules/imgproc/src/SegmMatcher.cpp:1066-1118, 1678-1765, 1957-2161): its nodes
   are the valid pixels of two cameras in two temporal layers, its cliques are the pairs of neighbours and, from the second
   frame on, the pairs that follow the motion from the older layer to the newer one. The values of the cost functions
   are parameters (integers); so are the masks and the motion. updateResegmModel(true) is modelled, which is called once
   for each frame and builds the cliques and the table of memberships. *)
From Coq Require Import ZArith List Bool.
From Verif Require Import Lib.Grid Model.FusionTerms Model.StereoMoves Model.PrimalDual.
Import ListNotations.
Local Open Scope Z_scope.

(* the mask of each camera; the row and column to which the motion of a pixel of the older layer leads, rounded; the costs of
   the labels; the costs of different labels of vertical, horizontal and temporal neighbours; m_nFramesProcessed *)
Record scene := Scene { srows : Z; scols : Z; mask_of : Z -> Z -> Z -> bool; motion : Z -> Z -> Z -> Z * Z; label_cost : Z -> Z -> Z;
  below_cost : Z -> Z; right_cost : Z -> Z; temporal_cost : Z -> Z; frames : Z }.

(* SegmMatcher.cpp:1066-1115: nLUTIdx counts columns, rows, layers and cameras *)
Definition col_of (s : scene) (i : Z) : Z := i mod scols s.
Definition row_of (s : scene) (i : Z) : Z := (i / scols s) mod srows s.
Definition layer_of (s : scene) (i : Z) : Z := (i / scols s / srows s) mod 2.
Definition cam_of (s : scene) (i : Z) : Z := i / scols s / srows s / 2.
Definition valid (s : scene) (i : Z) : bool := mask_of s (cam_of s i) (row_of s i) (col_of s i).
Definition nodes (s : scene) : list Z := filter (valid s) (zrange 0 (4 * srows s * scols s)).

(* SegmMatcher.cpp:1993-1999, 2026-2032; the costs of the labels 0 and 1 *)
Definition pair_cost (w : Z) (ls : list Z) : Z := match ls with [a; b] => Z.lxor a b * w | _ => 0 end.
(* SegmMatcher.cpp:1687-1719 and 1978-2047: the valid pairs of a node, in this order *)
Definition pairs (s : scene) (i : Z) : list clique :=
  (if (row_of s i + 1 <? srows s) && valid s (i + scols s) then [Clique [i; i + scols s] (pair_cost (below_cost s i))] else []) ++
  (if (col_of s i + 1 <? scols s) && valid s (i + 1) then [Clique [i; i + 1] (pair_cost (right_cost s i))] else []).
(* SegmMatcher.cpp:2079-2081 *)
Definition clamp (v n : Z) : Z := Z.max (Z.min v (n - 1)) 0.
Definition followed (s : scene) (i : Z) : Z :=
  let p := motion s (cam_of s i) (row_of s i) (col_of s i) in
  let dr := clamp (fst p) (srows s) - row_of s i in
  let dc := clamp (snd p) (scols s) - col_of s i in
  (i + (dr * scols s + dc)) - srows s * scols s.
(* SegmMatcher.cpp:1730-1731, 2051, 2066-2108: whether a node has a valid temporal clique *)
Definition linked (s : scene) (i : Z) : bool :=
  (1 <=? frames s) && (layer_of s i =? 1) && (row_of s i mod 2 =? 0) && (col_of s i mod 2 =? 0) && valid s (followed s i).
(* SegmMatcher.cpp:2126-2153 *)
Definition temporal_pair_cost (w : Z) (ls : list Z) : Z := match ls with [a; b] => if a =? b then 0 else w | _ => 0 end.
(* SegmMatcher.cpp:2109-2114: the members from the newer layer to the older one *)
Definition temporal (s : scene) (i : Z) : list clique :=
  if linked s i then [Clique [followed s i; i] (temporal_pair_cost (temporal_cost s i))] else [].

(* vCliqueMemberLUT of each node, and nCliqueIdx *)
Definition push (m : Z -> list (Z * Z)) (i : Z) (p : Z * Z) : Z -> list (Z * Z) := fun j => if j =? i then m j ++ [p] else m j.
Definition push_pair (st : (Z -> list (Z * Z)) * Z) (a b : Z) : (Z -> list (Z * Z)) * Z :=
  let '(m, n) := st in (push (push m a (n, 0)) b (n, 1), n + 1).
(* SegmMatcher.cpp:2001-2011, 2035-2045 *)
Definition push_clique (st : (Z -> list (Z * Z)) * Z) (c : clique) : (Z -> list (Z * Z)) * Z := push_pair st (node_at c 0) (node_at c 1).
(* SegmMatcher.cpp:2115-2122: the list of indices that is used here starts with the node itself *)
Definition push_temporal (s : scene) (st : (Z -> list (Z * Z)) * Z) (i : Z) : (Z -> list (Z * Z)) * Z :=
  if linked s i then push_pair st i (followed s i) else st.
(* the first loop runs over the nodes; the second one may run in parallel, so that it meets the nodes in any [order] *)
Definition member_table (s : scene) (order : list Z) : Z -> list (Z * Z) :=
  fst (fold_left (push_temporal s) order (fold_left push_clique (flat_map (pairs s) (nodes s)) (fun _ => [], 0))).

Definition resegm_graph (s : scene) (order : list Z) : graph :=
  Graph (nodes s) (fun i => pairs s i ++ temporal s i) (label_cost s) (member_table s order) 2.
