(* Which pixels are matched to a column, what a labeling costs, and what the buffers must record. *)
From Coq Require Import ZArith List Bool.
From Verif Require Import Lib.Grid Model.FusionTerms Spec.FusionTerms Model.StereoMoves.
Import ListNotations.
Local Open Scope Z_scope.

(* the column of the other image that a pixel of column [x] is matched to by the disparity [d] *)
Definition target (s : setup) (x d : Z) : Z := if second s then x + d else x - d.
(* the pixel at (row, x) is in the ROI, has a disparity, and this disparity matches it to column [c] *)
Definition hits (s : setup) (l : Z -> Z) (row c x : Z) : bool :=
  inside s (row * cols s + x) && (0 <=? l (row * cols s + x)) && (l (row * cols s + x) <? nreal s) &&
  (target s x (mind s + l (row * cols s + x)) =? c).
(* how many pixels are matched to a column *)
Definition matched (s : setup) (l : Z -> Z) (row c : Z) : Z := count (hits s l row c) (zrange 0 (cols s)).

(* the k-th pixel matched to a column adds [add (k-1)] *)
Definition penalty (add : Z -> Z) (n : Z) : Z := total (map add (zrange 0 n)).
Definition uniqueness (s : setup) (l : Z -> Z) : Z :=
  total (map (fun rc => penalty (addt s) (matched s l (fst rc) (snd rc))) (grid 0 (rows s) (- maxd s) (cols s + 2 * maxd s))).
Definition pixels (s : setup) : list Z := filter (inside s) (zrange 0 (rows s * cols s)).
Definition labels_cost (s : setup) (l : Z -> Z) : Z :=
  total (map (fun i => unary s i (l i) + total (map (fun c => cost c (map l (places c))) (cliques s i))) (pixels s)).
Definition energy (s : setup) (l : Z -> Z) : Z := uniqueness s l + labels_cost s l.

(* a clique names its nodes twice, by graph index and by map index *)
Definition named (s : setup) (c : clique) : Prop :=
  Forall2 (fun n p => 0 <= n /\ nth_error (pixels s) (Z.to_nat n) = Some p) (nodes c) (places c).
Definition sound (s : setup) : Prop :=
  0 < rows s /\ 0 < cols s /\ 0 <= mind s /\ 1 <= nreal s <= 253 /\ forall i c, In c (cliques s i) -> named s c.

Definition labelled (s : setup) (l : Z -> Z) : Prop := forall i, In i (pixels s) -> 0 <= l i < nlabels s.

(* the columns of the other image that can be matched, and some columns beyond both of its ends *)
Definition reachable_column (s : setup) (c : Z) : Prop := if second s then 0 <= c < cols s + maxd s else - maxd s <= c < cols s.
(* the count of each column is the number of pixels matched to it *)
Definition counted (s : setup) (st : state) : Prop := forall row c, 0 <= row < rows s -> reachable_column s c ->
  get_count s (asc st) row c = Some (matched s (lab st) row c).
(* the list of each column holds, at each label, the pixel matched to it by this label, if there is one *)
Definition listed (s : setup) (st : state) : Prop := forall row c l, 0 <= row < rows s -> reachable_column s c -> 0 <= l < nreal s ->
  (forall x, 0 <= x < cols s -> hits s (lab st) row c x = true -> lab st (row * cols s + x) = l -> lst (asc st) (cell s row c * list_size s + l) = sign16 x) /\
  ((forall x, 0 <= x < cols s -> hits s (lab st) row c x = true -> lab st (row * cols s + x) <> l) -> lst (asc st) (cell s row c * list_size s + l) = -1).

(* tables of costs: additions cost more and more, and removing one of n is never credited with more than its share *)
Definition fair_tables (add rem : Z -> Z) : Prop :=
  0 <= add 0 /\ (forall i j, 0 <= i <= j -> j < 200 -> add i <= add j) /\ (forall n, 1 <= n < 200 -> - penalty add n <= n * rem n).

(* the labeling after a move: the pixels that the solver chose take the new label *)
Definition chosen (s : setup) (x : Z -> Z) (i : Z) : Prop := exists n, 0 <= n /\ nth_error (pixels s) (Z.to_nat n) = Some i /\ x n = 1.
Definition moved (s : setup) (alpha : Z) (x : Z -> Z) (l l' : Z -> Z) : Prop :=
  forall i, (chosen s x i -> l' i = alpha) /\ (~ chosen s x i -> l' i = l i).

(* the contract of the solver: by the terms it was given, its answer is not worse than leaving all labels as they are *)
Definition not_worse (s : setup) (st : state) (alpha : Z) (x : Z -> Z) : Prop :=
  forall ts, move_terms s st alpha = Some ts -> terms_value (fun n => x n =? 1) ts <= terms_value (fun _ => false) ts.
Fixpoint solved (s : setup) (st : state) (ms : list (Z * (Z -> Z))) : Prop :=
  match ms with
  | [] => True
  | (alpha, x) :: ms' => 0 <= alpha < nlabels s /\ not_worse s st alpha x /\ forall st', move s st alpha x = Some st' -> solved s st' ms'
  end.

(* the states that a frame goes through: the labels it starts from, and any fusion moves *)
Definition warped_in_range (s : setup) (warped : option (Z -> Z)) : Prop :=
  match warped with Some w => forall i, In i (pixels s) -> 0 <= w i < nlabels s | None => True end.
Inductive reached (s : setup) : state -> Prop :=
| reached_reset warped st : warped_in_range s warped -> reset s warped = Some st -> reached s st
| reached_move st alpha x st' : reached s st -> 0 <= alpha < nlabels s -> move s st alpha x = Some st' -> reached s st'.

(* the first of the labels of least cost *)
Definition best (u : Z -> Z) (n v : Z) : Prop := 0 <= v < n /\ (forall l, 0 <= l < n -> u v <= u l) /\ (forall l, 0 <= l < v -> u v < u l).
(* the labels a frame starts from: the one of the previous frame where it had one, the best one elsewhere *)
Definition started (s : setup) (warped : option (Z -> Z)) (l : Z -> Z) : Prop := forall i, In i (pixels s) ->
  match warped with
  | Some w => if w i =? dontcare s then best (unary s i) (nlabels s) (l i) else l i = w i
  | None => best (unary s i) (nlabels s) (l i)
  end.
