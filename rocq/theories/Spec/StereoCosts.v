(* Which disparities of a pixel lead into the region of the other camera, what they cost, and which pixels are paired. *)
From Coq Require Import ZArith QArith List Bool.
From Verif Require Import Lib.Grid Model.FusionTerms Spec.FusionTerms Model.StereoMoves Spec.StereoMoves Model.StereoCosts.
Import ListNotations.
Local Open Scope Z_scope.

(* the geometry of a graph *)
Definition geometry (s : setup) : Prop := 0 < rows s /\ 0 < cols s /\ 0 <= mind s /\ 1 <= nreal s <= 253.

(* the disparity of label [l] leads from the pixel into the region of the other camera *)
Definition matches (s : setup) (f : features) (i l : Z) : Prop :=
  0 <= l < nreal s /\ exists row x c, i = row * cols s + x /\ 0 <= x < cols s /\ c = target s x (mind s + l) /\ 0 <= c < cols s /\ other f (row * cols s + c) = true.

(* integer part of a number that is not negative *)
Definition whole (q : Q) (v : Z) : Prop := (inject_Z v <= q < inject_Z (v + 1))%Q.
(* [v] is the cost of a disparity that leads into the region: distance to the median of the shape, plus the two weighed affinities *)
Definition match_cost (s : setup) (f : features) (i l v : Z) : Prop :=
  exists m a b, v = m + a + b /\
    (shape f i <> 0 /\ medians f (shape f i) < nreal s -> m = 20 * Z.abs (l - medians f (shape f i))) /\
    (shape f i = 0 \/ nreal s <= medians f (shape f i) -> m = 0) /\
    whole (img_aff f i l * (if Qlt_le_dec 0 (img_sal f i) then img_sal f i else 0) * 1000)%Q a /\
    whole (shp_aff f i l * (if Qlt_le_dec 0 (shp_sal f i) then shp_sal f i else 0) * 1000)%Q b.

(* the labels before [l] that lead into the region, each once *)
Definition earlier (s : setup) (f : features) (i l : Z) (ms : list Z) : Prop := NoDup ms /\ forall k, In k ms <-> k < l /\ matches s f i k.

(* affinities are distances: none is negative *)
Definition affinities (s : setup) (f : features) (i : Z) : Prop := forall l, 0 <= l < nreal s -> (0 <= img_aff f i l)%Q /\ (0 <= shp_aff f i l)%Q.
(* and bounds that the extractors keep *)
Definition bounded (s : setup) (f : features) (i : Z) : Prop :=
  (img_sal f i <= 1)%Q /\ (shp_sal f i <= 1)%Q /\ 0 <= medians f (shape f i) /\
  forall l, 0 <= l < nreal s -> (0 <= img_aff f i l <= 2)%Q /\ (0 <= shp_aff f i l <= 2)%Q.

(* two pixels of the region are neighbours, the second below the first or on its right *)
Definition neighbours (s : setup) (i j : Z) : Prop :=
  exists row x, 0 <= row < rows s /\ 0 <= x < cols s /\ i = row * cols s + x /\
    ((row + 1 < rows s /\ j = (row + 1) * cols s + x) \/ (x + 1 < cols s /\ j = row * cols s + (x + 1))).
Definition in_region (s : setup) (i : Z) : Prop := In i (pixels s).

Definition weights (f : features) : Prop := forall i o, (0 <= weight f i o)%Q.

(* the pixels of all cliques of the graph *)
Definition all_pairs (s : setup) (f : features) : list (list Z) := flat_map (fun i => map places (cliques (stereo_model s f) i)) (pixels s).
