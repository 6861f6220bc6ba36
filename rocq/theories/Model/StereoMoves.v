(* The stereo half of SegmMatcher (modules/imgproc/src/SegmMatcher.cpp): its disparity labels, the association buffers
   that record which pixels of the primary image are matched to each column of the other one, the lookup tables of the
   uniqueness cost, the initial labeling, the cost of a fusion move, the move itself, and the value of the energy.
   [None] is an access outside an array or a debug assertion that fails. Costs are integers without an upper limit
   (the code uses int32). The pairwise and unary cost functions are parameters, which
   Model/StereoCosts.v fills (SegmMatcher.cpp:1144-1405); not modelled are the reduction to quadratic terms and the QPBO solver
   (third-party code), whose answer is a parameter of the move. *)
From Coq Require Import ZArith List Bool.
From Verif Require Import Lib.Grid Model.FusionTerms.
Import ListNotations.
Local Open Scope Z_scope.

Definition obind {A B} (o : option A) (f : A -> option B) : option B := match o with Some a => f a | None => None end.
Definition ensure {A} (b : bool) (k : option A) : option A := if b then k else None.
Fixpoint ofold {A B} (f : A -> B -> option A) (l : list B) (a : A) : option A :=
  match l with [] => Some a | b :: l' => obind (f a b) (ofold f l') end.
Fixpoint omap {A B} (f : A -> option B) (l : list A) : option (list B) :=
  match l with [] => Some [] | a :: l' => obind (f a) (fun b => obind (omap f l') (fun bs => Some (b :: bs))) end.
Definition upd (f : Z -> Z) (i v : Z) : Z -> Z := fun j => if j =? i then v else f j.

(* SegmMatcher.cpp:50 *)
Definition disp_step : Z := 1.
(* SegmMatcher.hpp:37-38 *)
Definition dont_care_label : Z := -2147483648.
Definition occluded_label : Z := 2147483647.

(* SegmMatcher.cpp:706-724: the smallest disparity and the number of disparities; the real labels are those from the
   smallest one upwards. size_t differences; the assertions are lvAssert, kept in every build *)
Definition construct (mn mx : Z) : option (Z * Z) :=
  let lo := if mx <? mn then mx else mn in
  let hi := if mx <? mn then mn else mx in
  let hi := hi - (hi - lo) mod disp_step in
  ensure (hi <? occluded_label)
    (ensure (0 <? (hi - lo) / disp_step)
      (ensure ((hi - lo) mod disp_step =? 0)
        (let n := (hi - lo) / disp_step + 1 in
         ensure (n <=? 253) (Some (lo, n))))).

(* the parts of GraphModelData used below: grid size, smallest disparity, number of disparities, whether the primary
   camera is the second one, the primary ROI by map index, the cost tables of the labels (unary functions by map index,
   cliques by the map index of their first node), and the tables of the association costs *)
Record setup := Setup {
  rows : Z; cols : Z; mind : Z; nreal : Z; second : bool; inside : Z -> bool;
  unary : Z -> Z -> Z; cliques : Z -> list clique; addt : Z -> Z; remt : Z -> Z }.

(* SegmMatcher.cpp:888-895 *)
Definition dontcare (s : setup) : Z := nreal s.
Definition nlabels (s : setup) : Z := nreal s + 2.
Definition maxd (s : setup) : Z := mind s + (nreal s - 1) * disp_step.

(* SegmMatcher.cpp:2607-2611: the vector of labels is the disparities followed by the two special labels *)
Definition real_label (s : setup) (l : Z) : option Z :=
  ensure ((0 <=? l) && (l <? nlabels s))
    (Some (if l <? nreal s then mind s + l * disp_step else if l =? nreal s then dont_care_label else occluded_label)).
(* SegmMatcher.cpp:2613-2619, with its three debug assertions: the position of a real label in the vector of labels *)
Definition internal_label (s : setup) (r : Z) : option Z :=
  ensure ((r =? occluded_label) || (r =? dont_care_label))
    (ensure ((mind s <=? r) && (r <=? maxd s))
      (ensure ((r - mind s) mod disp_step =? 0)
        (Some ((r - mind s) / disp_step)))).
(* SegmMatcher.cpp:2621-2635 *)
Definition offset_value (s : setup) (l : Z) : option Z :=
  ensure (l <? nreal s) (obind (real_label s l) (fun r =>
    ensure ((mind s <=? r) && (r <=? maxd s)) (Some (if second s then r else - r)))).
Definition offset_col (s : setup) (x l : Z) : option Z :=
  ensure ((0 <=? x) && (x <? cols s)) (obind (offset_value s l) (fun d => Some (x + d))).

(* SegmMatcher.cpp:1028-1031: sizes of the buffers *)
Definition assoc_cols (s : setup) : Z := (cols s + maxd s) / disp_step.
Definition list_size (s : setup) : Z := nreal s * disp_step.

(* SegmMatcher.cpp:310-312: association counts (uint16) and, for each column and each label, the origin of the
   association (int16), both as flat arrays *)
Record assoc := Assoc { cnt : Z -> Z; lst : Z -> Z }.
Definition wrap16 (v : Z) : Z := v mod 65536.
Definition sign16 (v : Z) : Z := let w := v mod 65536 in if w <? 32768 then w else w - 65536.
Definition map_offset (s : setup) : Z := if second s then 0 else maxd s.
Definition cell (s : setup) (row col : Z) : Z := row * assoc_cols s + (col + map_offset s) / disp_step.
Definition in_counts (s : setup) (i : Z) : bool := (0 <=? i) && (i <? rows s * assoc_cols s).
Definition in_lists (s : setup) (i : Z) : bool := (0 <=? i) && (i <? rows s * assoc_cols s * list_size s).

(* SegmMatcher.cpp:2637-2645 *)
Definition get_count (s : setup) (a : assoc) (row col : Z) : option Z :=
  ensure ((0 <=? row) && (row <? rows s))
    (ensure (second s || ((- maxd s <=? col) && (col <? cols s)))
      (ensure (negb (second s) || ((0 <=? col) && (col <? cols s + maxd s)))
        (ensure (in_counts s (cell s row col)) (Some (cnt a (cell s row col)))))).

(* SegmMatcher.cpp:2653-2654, the same two lines in the three other functions: where an association may be *)
Definition assoc_range (s : setup) (x c : Z) : bool :=
  (second s || ((c <=? x - mind s) && (x - maxd s <=? c))) && (negb (second s) || ((x + mind s <=? c) && (c <=? x + maxd s))).

(* SegmMatcher.cpp:2647-2669 *)
Definition add_assoc (s : setup) (a : assoc) (row x l : Z) : option assoc :=
  ensure (l <? dontcare s) (ensure ((0 <=? row) && (row <? rows s) && (0 <=? x) && (x <? cols s)) (obind (offset_col s x l) (fun c =>
  ensure (assoc_range s x c) (let o := l * disp_step + x mod disp_step in let i := cell s row c * list_size s + o in
  ensure (o <? list_size s) (ensure (in_lists s i) (ensure (lst a i =? -1)
  (ensure (in_counts s (cell s row c)) (ensure (cnt a (cell s row c) <? 65535)
  (Some (Assoc (upd (cnt a) (cell s row c) (wrap16 (cnt a (cell s row c) + 1))) (upd (lst a) i (sign16 x)))))))))))).
(* SegmMatcher.cpp:2671-2691 *)
Definition remove_assoc (s : setup) (a : assoc) (row x l : Z) : option assoc :=
  ensure (l <? dontcare s) (ensure ((0 <=? row) && (row <? rows s) && (0 <=? x) && (x <? cols s)) (obind (offset_col s x l) (fun c =>
  ensure (assoc_range s x c) (let o := l * disp_step + x mod disp_step in let i := cell s row c * list_size s + o in
  ensure (o <? list_size s) (ensure (in_lists s i) (ensure (lst a i =? sign16 x)
  (ensure (in_counts s (cell s row c)) (ensure (0 <? cnt a (cell s row c))
  (Some (Assoc (upd (cnt a) (cell s row c) (wrap16 (cnt a (cell s row c) - 1))) (upd (lst a) i (-1)))))))))))).

(* SegmMatcher.cpp:376-378: the tables have 200 entries *)
Definition table_size : Z := 200.
Definition lookup (t : Z -> Z) (i : Z) : option Z := ensure ((0 <=? i) && (i <? table_size)) (Some (t i)).
(* SegmMatcher.cpp:76, 91-92 and 965-966, with one zero entry: trunc(3n/(n+2)*400), here without the rounding of the
   float division *)
Definition real_add (n : Z) : Z := if n =? 0 then 0 else Z.quot (1200 * n) (n + 2).
(* SegmMatcher.cpp:964 and 968: running sums of the additions *)
Fixpoint sums (add : Z -> Z) (n : nat) : Z := match n with O => 0 | S k => sums add k + add (Z.of_nat k) end.
Definition real_sum (add : Z -> Z) (n : Z) : Z := sums add (Z.to_nat n).
(* SegmMatcher.cpp:972: trunc(-sum/n + 1/2), here without the rounding of the float division *)
Definition approx_rem (add : Z -> Z) (n : Z) : Z := if n =? 0 then 0 else Z.quot (n - 2 * real_sum add n) (2 * n).

(* SegmMatcher.cpp:2693-2722; the additions use the real table since the step is one (L973-976) *)
Definition add_cost (s : setup) (a : assoc) (row x l : Z) : option Z :=
  ensure ((0 <=? row) && (row <? rows s) && (0 <=? x) && (x <? cols s))
    (if l <? dontcare s then
       obind (offset_col s x l) (fun c => ensure (assoc_range s x c) (obind (get_count s a row c) (fun n => lookup (addt s) n)))
     else Some 0).
Definition remove_cost (s : setup) (a : assoc) (row x l : Z) : option Z :=
  ensure ((0 <=? row) && (row <? rows s) && (0 <=? x) && (x <? cols s))
    (if l <? dontcare s then
       obind (offset_col s x l) (fun c => ensure (assoc_range s x c) (obind (get_count s a row c) (fun n => ensure (0 <? n) (lookup (remt s) n))))
     else Some 0).

(* SegmMatcher.cpp:2724-2735 *)
Definition total_assoc_cost (s : setup) (a : assoc) : option Z :=
  let first := if second s then mind s else - maxd s in
  let last := if second s then cols s + maxd s else cols s - mind s in
  obind (ofold (fun e rc => obind (get_count s a (fst rc) (snd rc)) (fun n => obind (lookup (real_sum (addt s)) n) (fun v => Some (e + v))))
           (grid 0 (rows s) first (last - first)) 0)
    (fun e => ensure (0 <=? e) (Some e)).

(* SegmMatcher.cpp:1078-1101: the nodes of the graph are the pixels of the ROI, in raster order *)
Definition graph (s : setup) : list Z := filter (inside s) (zrange 0 (rows s * cols s)).
Definition row_of (s : setup) (i : Z) : Z := i / cols s.
Definition col_of (s : setup) (i : Z) : Z := i mod cols s.

(* labels by map index (internal labels), and the associations *)
Record state := State { lab : Z -> Z; asc : assoc }.

(* SegmMatcher.cpp:2737-2753 *)
Definition unary_move_cost (s : setup) (a : assoc) (i l l' : Z) : option Z :=
  if l =? l' then Some 0 else
    ensure ((l <? nlabels s) && (l' <? nlabels s))
      (obind (remove_cost s a (row_of s i) (col_of s i) l) (fun r =>
       obind (add_cost s a (row_of s i) (col_of s i) l') (fun d => Some (r + d + unary s i l' - unary s i l)))).

(* SegmMatcher.cpp:2755-2770 and 3184-3206: the terms of a fusion move. The variable of a node is its graph index *)
Definition move_terms (s : setup) (st : state) (alpha : Z) : option (list (Z * list Z)) :=
  obind (omap (fun ki => obind (unary_move_cost s (asc st) (snd ki) (lab st (snd ki)) alpha) (fun u =>
           Some ((u, [fst ki]) :: flat_map (factor_terms alpha (lab st)) (cliques s (snd ki)))))
         (combine (zrange 0 (Z.of_nat (length (graph s)))) (graph s)))
    (fun ts => Some (concat ts)).

(* SegmMatcher.cpp:3212-3226: the move; [x] is the answer of the solver by graph index, negative for nodes it leaves
   undecided *)
Definition relabel (s : setup) (alpha : Z) (st : state) (i : Z) : option state :=
  obind (if lab st i <? dontcare s then remove_assoc s (asc st) (row_of s i) (col_of s i) (lab st i) else Some (asc st)) (fun a =>
  obind (if alpha <? dontcare s then add_assoc s a (row_of s i) (col_of s i) alpha else Some a) (fun a' =>
  Some (State (upd (lab st) i alpha) a'))).
Definition move (s : setup) (st : state) (alpha : Z) (x : Z -> Z) : option state :=
  ofold (fun st ki => if x (fst ki) =? 1 then relabel s alpha st (snd ki) else Some st)
    (combine (zrange 0 (Z.of_nat (length (graph s)))) (graph s)) st.

(* SegmMatcher.cpp:1433-1446: the best label of a pixel by its unary costs, the first of equals *)
Definition wta (u : Z -> Z) (n : Z) : Z :=
  fst (fold_left (fun best l => if u l <? snd best then (l, u l) else best) (zrange 1 (n - 1)) (0, u 0)).

(* SegmMatcher.cpp:1407-1461: labels of the previous frame after warping, if there is one; the best label of each pixel
   that has none; then the associations *)
Definition reset (s : setup) (warped : option (Z -> Z)) : option state :=
  let l0 := fun i => match warped with Some w => if inside s i then w i else dontcare s | None => dontcare s end in
  let l1 := fold_left (fun l i => if l i =? dontcare s then upd l i (wta (unary s i) (nlabels s)) else l) (graph s) l0 in
  obind (ofold (fun a i => if l1 i <? dontcare s then add_assoc s a (row_of s i) (col_of s i) (l1 i) else Some a)
           (graph s) (Assoc (fun _ => 0) (fun _ => -1)))
    (fun a => Some (State l1 a)).

(* SegmMatcher.cpp:3627-3645: association cost, plus the sum of the factors of the model *)
Definition model_value (s : setup) (l : Z -> Z) : Z :=
  fold_left (fun e i => fold_left (fun e c => e + cost c (map l (places c))) (cliques s i) (e + unary s i (l i))) (graph s) 0.
Definition value (s : setup) (st : state) : option Z :=
  obind (total_assoc_cost s (asc st)) (fun t => Some (t + model_value s (lab st))).

(* SegmMatcher.cpp:3181-3227 and 3241-3277, by a list of moves: each has its label and the answer of the solver. The
   third outcome is the assertion "stereo energy not minimizing!" *)
Inductive ending := Ran (st : state) | Stuck | Increased (before after : Z).
Fixpoint infer (s : setup) (ms : list (Z * (Z -> Z))) (last : Z) (st : state) : ending :=
  match ms with
  | [] => Ran st
  | (alpha, x) :: ms' =>
    match move_terms s st alpha, move s st alpha x with
    | Some _, Some st' => match value s st' with
                          | Some e => if e <=? last then infer s ms' e st' else Increased last e
                          | None => Stuck
                          end
    | _, _ => Stuck
    end
  end.

(* SegmMatcher.cpp:792-797 and 805-812: what is given out is the internal labelings, converted to int32 *)
Definition output (st : state) (i : Z) : Z := lab st i.
(* SegmMatcher.cpp:785, 41-42 of the header: the internal label of a foreground pixel *)
Definition output_mask (foreground : bool) : Z := if foreground then 1 else 0.
