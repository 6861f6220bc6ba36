(* Superpixels on the graphics card: the kernels of modules/imgproc/cuda/SLIC.cu lines 65-235, and SLIC::segment, assignment and update, modules/imgproc/src/SLIC.cpp lines 138-190.
   SLIC::initialize and enforceConnectivity are in Model/Slic.v. Numbers are reals; positions are (row, column). The frame has the size given to initialize.
   The threads of a kernel run in any order: within one kernel they read what no thread writes, and meet only in atomic additions. *)
From Coq Require Import ZArith Reals List Bool Permutation.
From Verif Require Import Lib.Grid Model.Slic.
Import ListNotations.
Open Scope Z_scope.

(* m_FrameWidth, m_FrameHeight, m_SpxDiam, m_wc, m_nbIteration, m_deviceProp.maxThreadsPerBlock *)
Record params := { width : Z; height : Z; diam : Z; wc : R; iterations : nat; max_threads : Z }.
(* m_nbSpxPerRow, m_nbSpxPerCol, m_nbSpx: SLIC.cpp lines 86-88 *)
Definition per_row (p : params) : Z := div_up (width p) (diam p).
Definition per_col (p : params) : Z := div_up (height p) (diam p).
Definition spx (p : params) : Z := per_row p * per_col p.
(* the frame as kRgb2CIELab leaves it: 0, 1 and 2 are L, a and b *)
Definition frame : Type := Z * Z -> nat -> R.
(* d_fClusters and d_fAccAtt by superpixel and attribute (0, 1, 2: colour, 3: column, 4: row, 5: number of pixels), and the label surface *)
Record state := { clusters : Z -> nat -> R; sums : Z -> nat -> R; labels : Z * Z -> Z }.

(* kInitClusters, SLIC.cu lines 107-128, launched with a thread for each superpixel; the positions are truncated, so that half a diameter is rounded down *)
Definition seed_col (p : params) (k : Z) : Z := Z.min (k mod per_row p * diam p + diam p / 2) (width p - 1).
Definition seed_row (p : params) (k : Z) : Z := Z.min (k / per_row p * diam p + diam p / 2) (height p - 1).
Definition seed (p : params) (f : frame) (k : Z) (a : nat) : R :=
  match a with 3%nat => IZR (seed_col p k) | 4%nat => IZR (seed_row p k) | _ => f (seed_row p k, seed_col p k) a end.
Definition init_clusters (p : params) (f : frame) (s : state) : state :=
  {| clusters := fun k a => if (0 <=? k) && (k <? spx p) && (a <? 5)%nat then seed p f k a else clusters s k a; sums := sums s; labels := labels s |}.

(* SLIC.cpp lines 164-170: the blocks of kAssignment, and what is asserted of them *)
Definition layers (p : params) : Z := div_up (diam p * diam p) (max_threads p).
Definition block_height (p : params) : Z := Z.min (diam p) (max_threads p / diam p).
Definition launches (p : params) : bool := (3 <=? diam p) && (3 <=? block_height p).
(* SLIC.cu lines 163-164: all threads, by the row and column of the block and the pixel. The first number of each: blockIdx.y, blockIdx.x, blockIdx.z, threadIdx.y, threadIdx.x *)
Definition thread : Type := (Z * Z) * (Z * Z).
Definition place (p : params) (t : Z * Z * Z * (Z * Z)) : thread :=
  let '(by_, bx, bz, (ty, tx)) := t in
  ((by_, bx), (by_ * block_height p * layers p + bz * block_height p + ty, bx * diam p + tx)).
Definition threads (p : params) : list thread :=
  map (place p) (list_prod (list_prod (grid 0 (per_col p) 0 (per_row p)) (zrange 0 (layers p))) (grid 0 (block_height p) 0 (diam p))).

(* computeDistance, lines 65-70 *)
Definition distance (p : params) (f : frame) (q : Z * Z) (c : nat -> R) : R :=
  (let ds2 := (IZR (snd q) - c 3%nat) * (IZR (snd q) - c 3%nat) + (IZR (fst q) - c 4%nat) * (IZR (fst q) - c 4%nat) in
  let dc2 := (f q 0%nat - c 0%nat) * (f q 0%nat - c 0%nat) + (f q 1%nat - c 1%nat) * (f q 1%nat - c 1%nat) + (f q 2%nat - c 2%nat) * (f q 2%nat - c 2%nat) in
  sqrt (dc2 + ds2 / IZR (diam p * diam p)%Z * (wc p * wc p)))%R.
(* lines 137-155 with 176-178: the superpixels around a block, row by row *)
Definition around (p : params) (b : Z * Z) : list Z :=
  flat_map (fun i => flat_map (fun j =>
    let x := snd b + j in let k := (fst b + i) * per_row p + x in
    if (x <? 0) || (per_row p <=? x) || (k <? 0) || (spx p <=? k) then [] else [k]) [-1; 0; 1]) [-1; 0; 1].
(* lines 160-161 and 174-192; a column of -1 stands for no superpixel *)
Definition nearest (p : params) (f : frame) (c : Z -> nat -> R) (t : thread) : Z * R :=
  fold_left (fun best k => if Req_EM_T (c k 3%nat) (-1) then best
    else let d := distance p f (snd t) (c k) in if Rlt_dec d (snd best) then (k, d) else best) (around p (fst t)) (-1, 100000%R).
Definition inside (p : params) (q : Z * Z) : bool := (fst q <? height p) && (snd q <? width p).
Definition attribute (f : frame) (q : Z * Z) (a : nat) : R :=
  match a with 3%nat => IZR (snd q) | 4%nat => IZR (fst q) | 5%nat => 1%R | _ => f q a end.
(* lines 166-203, one thread; None: no label, and an addition at index -1 *)
Definition work (p : params) (f : frame) (s : state) (t : thread) : option state :=
  if inside p (snd t) then
    let k := fst (nearest p f (clusters s) t) in
    if k <? 0 then None
    else Some {| clusters := clusters s; sums := fun c a => if c =? k then (sums s c a + attribute f (snd t) a)%R else sums s c a;
                 labels := fun q => if (fst q =? fst (snd t)) && (snd q =? snd (snd t)) then k else labels s q |}
  else Some s.
Definition assign (p : params) (f : frame) (order : list thread) (s : state) : option state :=
  fold_left (fun o t => match o with Some s => work p f s t | None => None end) order (Some s).
(* kUpdate, lines 207-233, launched with enough threads *)
Definition update (p : params) (s : state) : state :=
  let on k := (0 <=? k) && (k <? spx p) in
  {| clusters := fun k a => if on k && (a <? 5)%nat then if Req_EM_T (sums s k 5%nat) 0 then clusters s k a else (sums s k a / sums s k 5%nat)%R else clusters s k a;
     sums := fun k a => if on k && (a <? 6)%nat then if Req_EM_T (sums s k 5%nat) 0 then sums s k a else 0%R else sums s k a;
     labels := labels s |}.
(* SLIC.cpp lines 156-161 *)
Inductive iterates (p : params) (f : frame) : nat -> state -> option state -> Prop :=
| iterates_done : forall s, iterates p f 0 s (Some s)
| iterates_fault : forall n s order, Permutation order (threads p) -> assign p f order s = None -> iterates p f (S n) s None
| iterates_next : forall n s order s' r, Permutation order (threads p) -> assign p f order s = Some s' -> iterates p f n (update p s') r -> iterates p f (S n) s r.
(* SLIC::segment, lines 138-162, where the assertions hold *)
Definition segment (p : params) (f : frame) (s : state) (r : option state) : Prop := launches p = true /\ iterates p f (iterations p) (init_clusters p f s) r.
(* after SLIC::initialize, lines 130-135; the label surface is not written *)
Definition initialized (l : Z * Z -> Z) : state := {| clusters := fun _ _ => 0%R; sums := fun _ _ => 0%R; labels := l |}.
(* several frames *)
Inductive segments (p : params) : list frame -> state -> state -> Prop :=
| segments_none : forall s, segments p [] s s
| segments_next : forall f fs s s1 s2, segment p f s (Some s1) -> segments p fs s1 s2 -> segments p (f :: fs) s s2.

(* kRgb2CIELab, lines 72-104; r, g and b are divided by 255 already. exp(log(0)/3) is 0 *)
Definition third (v : R) : R := if Rle_dec v 0 then 0%R else exp (ln v / 3).
Definition lab (r g b : R) : R * R * R :=
  let x := ((r * 0.412453 + g * 0.357580 + b * 0.180423) / 0.950456)%R in
  let y := (r * 0.212671 + g * 0.715160 + b * 0.072169)%R in
  let z := ((r * 0.019334 + g * 0.119193 + b * 0.950227) / 1.088754)%R in
  let y3 := third y in
  let x' := if Rlt_dec 0.008856 x then third x else (7.787 * x + 0.13793)%R in
  let y' := if Rlt_dec 0.008856 y then y3 else (7.787 * y + 0.13793)%R in
  let z' := if Rlt_dec 0.008856 z then (z / third z)%R else (7.787 * z + 0.13793)%R in
  (if Rlt_dec 0.008856 y' then (116 * y3 - 16)%R else (903.3 * y')%R, ((x' - y') * 500)%R, ((y' - z') * 200)%R).
(* the frame of an image of r, g and b *)
Definition colours (im : Z * Z -> R * R * R) : frame := fun q a => let '(r, g, b) := im q in let '(l, x, y) := lab r g b in match a with 0%nat => l | 1%nat => x | _ => y end.
