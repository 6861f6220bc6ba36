(* SegmMatcher::GraphModelData::resetStereoLabelingByProjection (modules/imgproc/src/SegmMatcher.cpp:1464-1549): the
   disparity labels of one camera from those of the other: votes, a 9x9 median, and the filling of holes. The rows are
   taken in order (the code may run them in parallel; they share nothing). cv::medianBlur is modelled by its definition,
   with replicated borders; displays are not modelled. [second] says that the base camera is the second one. *)
From Coq Require Import ZArith List Bool.
From Verif Require Import Lib.Grid Model.FusionTerms Model.StereoMoves.
Import ListNotations.
Local Open Scope Z_scope.

Definition occluded (s : setup) : Z := nreal s + 1.
(* the vote map: one counter for each pixel and real label, as a flat array *)
Definition vote_cell (s : setup) (i k : Z) : Z := i * nreal s + k.
Definition in_votes (s : setup) (j : Z) : bool := (0 <=? j) && (j <? rows s * cols s * nreal s).

(* SegmMatcher.cpp:1482-1491: one pixel of the base image; votes are reversed *)
Definition vote (s : setup) (roi : Z -> bool) (base : Z -> Z) (row : Z) (v : Z -> Z) (x : Z) : option (Z -> Z) :=
  let l := base (row * cols s + x) in
  if l <? nreal s then
    obind (offset_col s x l) (fun c =>
      if (0 <=? c) && (c <? cols s) && roi (row * cols s + c) then
        let j := vote_cell s (row * cols s + c) (nreal s - 1 - l) in ensure (in_votes s j) (Some (upd v j (v j + 1)))
      else Some v)
  else Some v.

(* std::max_element: the first of the greatest *)
Fixpoint max_from (best : Z * Z) (k : Z) (vs : list Z) : Z * Z :=
  match vs with [] => best | v :: vs' => max_from (if snd best <? v then (k, v) else best) (k + 1) vs' end.
Definition max_element (vs : list Z) : option (Z * Z) := match vs with [] => None | v :: vs' => Some (max_from (0, v) 1 vs') end.

(* SegmMatcher.cpp:1494-1505: one pixel of the other image *)
Definition winner (s : setup) (roi : Z -> bool) (v : Z -> Z) (row : Z) (l : Z -> Z) (x : Z) : Z -> Z :=
  let i := row * cols s + x in
  if roi i then
    upd l i (match max_element (map (fun k => v (vote_cell s i k)) (zrange 0 (nreal s))) with
             | Some (k, n) => if 0 <? n then nreal s - 1 - k else occluded s
             | None => occluded s
             end)
  else l.

(* SegmMatcher.cpp:1481-1508 *)
Definition project_row (s : setup) (roi : Z -> bool) (base : Z -> Z) (vl : (Z -> Z) * (Z -> Z)) (row : Z) : option ((Z -> Z) * (Z -> Z)) :=
  obind (ofold (vote s roi base row) (zrange 0 (cols s)) (fst vl)) (fun v =>
  Some (v, fold_left (winner s roi v row) (zrange 0 (cols s)) (snd vl))).
(* SegmMatcher.cpp:1474-1508 *)
Definition project (s : setup) (roi : Z -> bool) (base : Z -> Z) : option (Z -> Z) :=
  obind (ofold (project_row s roi base) (zrange 0 (rows s)) (fun _ => 0, fun _ => dontcare s)) (fun vl => Some (snd vl)).

(* SegmMatcher.cpp:1509: the 41st of the 81 values around a pixel, with the border replicated *)
Definition clamp (n v : Z) : Z := Z.max 0 (Z.min (n - 1) v).
Definition median (s : setup) (l : Z -> Z) (i : Z) : Z :=
  nth 40 (sort (map (fun rc => l (clamp (rows s) (fst rc) * cols s + clamp (cols s) (snd rc))) (grid (row_of s i - 4) 9 (col_of s i - 4) 9))) 0.

(* SegmMatcher.cpp:1517-1524, and the same at 1525-1532: the label of a pixel of the row, if it is in the image, in the
   region, and has a label *)
Definition probe (s : setup) (roi : Z -> bool) (l : Z -> Z) (row c : Z) : option Z :=
  if (0 <=? c) && (c <? cols s) && roi (row * cols s + c) && negb (l (row * cols s + c) =? dontcare s) then Some (l (row * cols s + c)) else None.
(* SegmMatcher.cpp:1516-1539: the offsets in order, the right side first; label zero when the last one gave nothing *)
Fixpoint search (s : setup) (roi : Z -> bool) (l : Z -> Z) (row x : Z) (offsets : list Z) : Z :=
  match offsets with
  | [] => 0
  | o :: os => match probe s roi l row (x + o) with
               | Some v => v
               | None => match probe s roi l row (x - o) with Some v => v | None => search s roi l row x os end
               end
  end.
(* SegmMatcher.cpp:1512-1542: one pixel *)
Definition fill_at (s : setup) (roi : Z -> bool) (row : Z) (l : Z -> Z) (x : Z) : Z -> Z :=
  let i := row * cols s + x in
  upd l i (if negb (roi i) then dontcare s
           else if l i =? dontcare s then search s roi l row x (zrange 0 (maxd s + 1)) else l i).
(* SegmMatcher.cpp:1510-1544: rows downwards, each from its right end *)
Definition fill (s : setup) (roi : Z -> bool) (l : Z -> Z) : Z -> Z :=
  fold_left (fun l row => fold_left (fill_at s roi row) (rev (zrange 0 (cols s))) l) (zrange 0 (rows s)) l.

(* SegmMatcher.cpp:1545: the debug assertion at the end *)
Definition no_holes (s : setup) (roi : Z -> bool) (l : Z -> Z) : bool :=
  forallb (fun i => negb (roi i && (l i =? dontcare s))) (zrange 0 (rows s * cols s)).
Definition projection (s : setup) (roi : Z -> bool) (base : Z -> Z) : option (Z -> Z) :=
  obind (project s roi base) (fun l => let f := fill s roi (median s l) in ensure (no_holes s roi f) (Some f)).

(* SegmMatcher::GraphModelData::computeOcclusionMaps (SegmMatcher.cpp:1591-1637), for one camera: the same votes, then marks *)
(* SegmMatcher.cpp:1621-1629: one pixel *)
Definition mark (s : setup) (roi : Z -> bool) (v : Z -> Z) (row : Z) (o : Z -> Z) (x : Z) : Z -> Z :=
  let i := row * cols s + x in
  if roi i then
    match max_element (map (fun k => v (vote_cell s i k)) (zrange 0 (nreal s))) with
    | Some (_, n) => if n =? 0 then upd o i 255 else o
    | None => upd o i 255
    end
  else o.
(* SegmMatcher.cpp:1608-1630 *)
Definition mark_row (s : setup) (roi : Z -> bool) (base : Z -> Z) (vo : (Z -> Z) * (Z -> Z)) (row : Z) : option ((Z -> Z) * (Z -> Z)) :=
  obind (ofold (vote s roi base row) (zrange 0 (cols s)) (fst vo)) (fun v =>
  Some (v, fold_left (mark s roi v row) (zrange 0 (cols s)) (snd vo))).
(* SegmMatcher.cpp:1603-1630 *)
Definition marks (s : setup) (roi : Z -> bool) (base : Z -> Z) : option (Z -> Z) :=
  obind (ofold (mark_row s roi base) (zrange 0 (rows s)) (fun _ => 0, fun _ => 0)) (fun vo => Some (snd vo)).
(* SegmMatcher.cpp:1631: the 13th of 25 values *)
Definition median5 (s : setup) (l : Z -> Z) (i : Z) : Z :=
  nth 12 (sort (map (fun rc => l (clamp (rows s) (fst rc) * cols s + clamp (cols s) (snd rc))) (grid (row_of s i - 2) 5 (col_of s i - 2) 5))) 0.
Definition occlusions (s : setup) (roi : Z -> bool) (base : Z -> Z) : option (Z -> Z) := obind (marks s roi base) (fun o => Some (median5 s o)).
