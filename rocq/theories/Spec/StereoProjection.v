(* Which pixels of the base image are matched to a pixel of the other one, and where a hole takes its label from. *)
From Coq Require Import ZArith List Bool.
From Verif Require Import Lib.Grid Model.StereoMoves Spec.StereoMoves Model.StereoProjection.
Import ListNotations.
Local Open Scope Z_scope.

(* a pixel of the base image that has the label [l], which matches it to column [c] *)
Definition matched_by (s : setup) (base : Z -> Z) (row c l : Z) : Prop :=
  exists x, 0 <= x < cols s /\ 0 <= l < nreal s /\ base (row * cols s + x) = l /\ target s x (mind s + l) = c.
(* the largest of these labels, or the occluded label when there is none *)
Definition nearest_surface (s : setup) (base : Z -> Z) (row c v : Z) : Prop :=
  (matched_by s base row c v /\ forall l, matched_by s base row c l -> l <= v) \/ ((forall l, ~ matched_by s base row c l) /\ v = nreal s + 1).

Definition in_row (s : setup) (roi : Z -> bool) (row c : Z) : Prop := 0 <= c < cols s /\ roi (row * cols s + c) = true.
(* at distance [o] there is something on the right, or a label on the left *)
Definition on_right (s : setup) (roi : Z -> bool) (row x o : Z) : Prop := in_row s roi row (x + o).
Definition on_left (s : setup) (roi : Z -> bool) (l : Z -> Z) (row x o : Z) : Prop := in_row s roi row (x - o) /\ l (row * cols s + (x - o)) <> dontcare s.
(* a hole takes the final label of the nearest pixel on its right, or the label of the nearest labelled one on its left if this is closer; zero if both are too far *)
Definition hole_filled (s : setup) (roi : Z -> bool) (l f : Z -> Z) (row x : Z) : Prop :=
  (exists o, 1 <= o <= maxd s /\ (forall o', 1 <= o' < o -> ~ on_right s roi row x o' /\ ~ on_left s roi l row x o') /\
     ((on_right s roi row x o /\ f (row * cols s + x) = f (row * cols s + (x + o))) \/
      (~ on_right s roi row x o /\ on_left s roi l row x o /\ f (row * cols s + x) = l (row * cols s + (x - o))))) \/
  ((forall o, 1 <= o <= maxd s -> ~ on_right s roi row x o /\ ~ on_left s roi l row x o) /\ f (row * cols s + x) = 0).
Definition filled (s : setup) (roi : Z -> bool) (l f : Z -> Z) : Prop := forall row x, 0 <= row < rows s -> 0 <= x < cols s -> let i := row * cols s + x in
  (roi i = false -> f i = dontcare s) /\
  (roi i = true -> l i <> dontcare s -> f i = l i) /\
  (roi i = true -> l i = dontcare s -> hole_filled s roi l f row x).

(* a pixel that no pixel of the base image is matched to *)
Definition unmatched (s : setup) (base : Z -> Z) (row c : Z) : Prop := forall l, ~ matched_by s base row c l.
(* how many of the 25 pixels around one, with the border replicated, pass a test *)
Definition around (s : setup) (test : Z -> bool) (row c : Z) : Z :=
  count (fun rc => test (clamp (rows s) (fst rc) * cols s + clamp (cols s) (snd rc))) (grid (row - 2) 5 (c - 2) 5).
