(* Image tiles in the shared memory of work groups and the binary median blur of LOBSTER on the graphics card: GLShader::getComputeShaderFunctionSource_SharedDataPreLoad and _BinaryMedianBlur,
   modules/utils/src/opengl-shaders.cpp lines 679-767; BackgroundSubtractorLOBSTER_GLSL::getComputeShaderSource_PostProc, modules/video/src/BackgroundSubtractorLOBSTER.cpp lines 279-303 (with BGSLOBSTER_GLSL_USE_SHAREDMEM).
   One channel. Images are read as zero outside, and not written there (image_load of Model/GlScan.v). *)
From Coq Require Import ZArith List Bool.
From Verif Require Import Lib.Grid Model.GlScan.
Import ListNotations.
Open Scope Z_scope.

Section Preload.
(* size of the work group and of the border around its tile; int(x*fVar), rounded in floating point *)
Variables (w h border : Z) (scaled : Z -> Z).
(* lines 696-728; an invocation is x and y in its group *)
Definition quadrant (t : Z * Z) : Z :=
  let u := scaled (fst t) in
  if (snd t <? u) && (h - u <=? snd t) then 1 else if (u <? snd t) && (snd t <=? h - u) then 2 else if (snd t <=? u) && (snd t <? h - u) then 0 else 3.
(* nQuadExtRowLength *)
Definition row_length (q : Z) : Z := if (q =? 1) || (q =? 2) then h + border else w + border.
(* vCurrQuadExtCoord of lines 733-734, from the first pixel of the group *)
Definition cell (q k : Z) : Z * Z :=
  let r := k / row_length q in let c := k mod row_length q in
  if q =? 1 then (w + border - 1 - r, - border + c)
  else if q =? 2 then (- border + r, h + border - 1 - c)
  else if q =? 0 then (- border + c, - border + r)
  else (w + border - 1 - c, h + border - 1 - r).
(* bound of the loop of line 732 *)
Definition limit (q : Z) : Z := row_length q * border.

(* where an invocation is: before the atomic counter, in the loop with a number, or done *)
Inductive place := Ask | Hold (k : Z) | Gone.
(* the array avPreloadData by coordinates from the first pixel of the group, the counters anQuadrantLockstep *)
Record state := { data : Z * Z -> Z; counters : Z -> Z; at_place : Z * Z -> place }.
Definition put {A} (f : Z * Z -> A) (p : Z * Z) (v : A) : Z * Z -> A := fun q => if (fst q =? fst p) && (snd q =? snd p) then v else f q.
(* lines 692 and 729: at the barrier the pixels of the group are loaded and the counters are zero; the rest of the array holds anything *)
Definition at_barrier (im : image) (x0 y0 : Z) (garbage : Z * Z -> Z) : state :=
  {| data := fun p => if (0 <=? fst p) && (fst p <? w) && (0 <=? snd p) && (snd p <? h) then image_load im (x0 + fst p) (y0 + snd p) else garbage p;
     counters := fun _ => 0; at_place := fun _ => Ask |}.
(* one access to shared memory by invocation t: lines 731, 735 and 736 *)
Definition advance (im : image) (x0 y0 : Z) (s : state) (t : Z * Z) : state :=
  let q := quadrant t in
  match at_place s t with
  | Gone => s
  | Ask => let k := counters s q in
      {| data := data s; counters := fun q' => if q' =? q then k + 1 else counters s q'; at_place := put (at_place s) t (if k <? limit q then Hold k else Gone) |}
  | Hold k => {| data := put (data s) (cell q k) (image_load im (x0 + fst (cell q k)) (y0 + snd (cell q k))); counters := counters s; at_place := put (at_place s) t Ask |}
  end.
Definition in_group (t : Z * Z) : Prop := 0 <= fst t < w /\ 0 <= snd t < h.
Definition preload (im : image) (x0 y0 : Z) (garbage : Z * Z -> Z) (sched : list (Z * Z)) : state := fold_left (advance im x0 y0) sched (at_barrier im x0 y0 garbage).
Definition finished (s : state) : Prop := forall t, in_group t -> at_place s t = Gone.
End Preload.

(* lines 745-750 and 757-765: pixels above 128 around the one at x and y, as seen by f *)
Definition median_blur (k : Z) (f : Z * Z -> Z) (x y : Z) : Z :=
  let half := k / 2 in
  if k * k / 2 <? count (fun d => 128 <? f (x + snd d, y + fst d)) (grid (- half) (half - - half + 1) (- half) (half - - half + 1)) then 255 else 0.
(* without shared memory: lines 743-753 *)
Definition median_direct (k : Z) (im : image) (x y : Z) : Z := median_blur k (fun p => image_load im (fst p) (snd p)) x y.
(* with shared memory: lines 756-766, the invocation at (x, y) of the group *)
Definition median_shared (k : Z) (tile : Z * Z -> Z) (x y : Z) : Z := median_blur k tile x y.

(* getComputeShaderSource_PostProc: input and output are the same image. Events of the work groups: a group (column and row of groups) loads an element of its tile; when it has
   loaded all, its invocations store their results *)
Section PostProc.
Variables (w h k : Z).
Inductive event := Fetch (g p : Z * Z) | Result (g p : Z * Z).
Record world := { mask : image; tile : Z * Z -> Z * Z -> option Z; storing : Z * Z -> bool }.
Definition in_tile (p : Z * Z) : Prop := - (k / 2) <= fst p < w + k / 2 /\ - (k / 2) <= snd p < h + k / 2.
Definition tile_value (s : world) (g p : Z * Z) : Z := match tile s g p with Some v => v | None => 0 end.
Definition allowed (s : world) (e : event) : Prop :=
  match e with
  | Fetch g p => in_tile p /\ storing s g = false
  | Result g p => in_group w h p /\ forall q, in_tile q -> tile s g q <> None
  end.
Definition occur (s : world) (e : event) : world :=
  match e with
  | Fetch g p => {| mask := mask s; tile := put (tile s) g (put (tile s g) p (Some (image_load (mask s) (fst g * w + fst p) (snd g * h + snd p)))); storing := storing s |}
  | Result g p => {| mask := image_store (mask s) (fst g * w + fst p) (snd g * h + snd p) (median_shared k (tile_value s g) (fst p) (snd p)); tile := tile s; storing := put (storing s) g true |}
  end.
Definition before (im : image) : world := {| mask := im; tile := fun _ _ => None; storing := fun _ => false |}.
Inductive history : list event -> world -> world -> Prop :=
| history_nil : forall s, history [] s s
| history_cons : forall e es s s', allowed s e -> history es (occur s e) s' -> history (e :: es) s s'.
(* one group after the other *)
Definition group_events (g : Z * Z) : list event :=
  map (Fetch g) (map (fun p => (snd p, fst p)) (grid (- (k / 2)) (h + k / 2 + k / 2) (- (k / 2)) (w + k / 2 + k / 2))) ++ map (Result g) (map (fun p => (snd p, fst p)) (grid 0 h 0 w)).
End PostProc.
