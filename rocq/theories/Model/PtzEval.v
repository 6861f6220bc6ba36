(* The evaluation of trackers on the virtual PTZ camera: vptz::Evaluator Setup (its frame indices, lines 708 and 732-751), BeginTesting, GetNextFrame, UpdateCurrentResult, EndTesting and GetInitTargetBBox,
   modules/vptz/src/virtualptz.cpp lines 516-572 and 610-703. The translated ground truth of a frame comes from Model/Ptz. Doubles are reals, with None for what is not a number or infinite;
   areas are taken not to overflow. Files, the averages over sequences and the text output are left out. *)
From Coq Require Import ZArith Reals Bool List.
From Verif Require Import Model.Ptz Model.PtzCamera.
Open Scope R_scope.

(* Setup: total is the number of frames, gt_first the position of the first entry of the ground truth, gt_count and gt_last its length and the last position; the result is the first
   and last frame of the test and m_nTestFrameCount *)
Definition setup (total gt_first gt_count gt_last first last : Z) : option (Z * Z * Z) :=
  (if negb ((first <? last) && (0 <? last)) then None
   else if total <? gt_first then None
   else if negb (gt_count =? gt_last - gt_first + 1) then None
   else
     let last' := if last <? gt_last then last else gt_last in
     if first <? 0 then Some (gt_first, last', last' - gt_first)
     else if first <? gt_first then None
     else if last' <=? first then None
     else Some (first, last', last' - first))%Z.

Record rect := { rx : Z; ry : Z; rw : Z; rh : Z }.
Definition area (r : rect) : Z := (rw r * rh r)%Z.
(* operator& of cv::Rect *)
Definition meet (a b : rect) : rect :=
  let x := Z.max (rx a) (rx b) in
  let y := Z.max (ry a) (ry b) in
  let w := (Z.min (rx a + rw a) (rx b + rw b) - x)%Z in
  let h := (Z.min (ry a + rh a) (ry b + rh b) - y)%Z in
  if (w <=? 0)%Z || (h <=? 0)%Z then {| rx := 0; ry := 0; rw := 0; rh := 0 |} else {| rx := x; ry := y; rw := w; rh := h |}.
(* cvRound of n / 2: halves go to the even number *)
Definition round_half (n : Z) : Z := if Z.even n then (n / 2)%Z else (let q := n / 2 in if Z.even q then q else q + 1)%Z.
Definition norm (x y : Z) : R := sqrt (IZR (x * x + y * y)).
Definition over (a b : R) : option R := if Req_EM_T b 0 then None else Some (a / b).
Definition add (a b : option R) : option R := match a, b with Some a, Some b => Some (a + b) | _, _ => None end.

Record test := {
  first : Z; last : Z; total : Z;                (* m_nFirstTestFrameIdx, m_nLastTestFrameIdx, m_nTestFrameCount *)
  cam : camera; queried : bool;
  out_of_view : Z; processed : Z; error_sum : option R; offset_sum : option R; overlap_sum : option R;
  gt_box : rect }.                               (* tgtBoundingBox *)

(* BeginTesting, at the tick t *)
Definition begin_test (s : test) (t : R) : option test :=
  match begin_playing (cam s) (first s) t with
  | None => None
  | Some c => Some {| first := first s; last := last s; total := total s; cam := c; queried := false; out_of_view := 0; processed := 0; error_sum := Some 0; offset_sum := Some 0; overlap_sum := Some 0; gt_box := gt_box s |}
  end.
Inductive where_to := Pixel (x y : Z) | Angles (h v : R).
(* GetNextFrame: the clock at WaitDelay and whether a frame could be read; the timing of GetFrame is from t' to u' *)
Definition next_frame (s : test) (w : where_to) (t u t' u' : R) (ok : bool) : option test :=
  let moved := match w with Pixel x y => go_to (cam s) x y | Angles h v => match set (cam s) Hori_angle h with Some c => set c Verti_angle v | None => None end end in
  match moved with
  | None => None
  | Some c =>
    match wait c t u with
    | None => None
    | Some (c, more) =>
      let inside := more && negb (frame c <? first s)%Z && negb (last s <? frame c)%Z in
      let c' := if inside then get_frame c ok t' u' else c in
      Some {| first := first s; last := last s; total := total s; cam := c'; queried := inside && ok; out_of_view := out_of_view s; processed := processed s;
              error_sum := error_sum s; offset_sum := offset_sum s; overlap_sum := overlap_sum s; gt_box := gt_box s |}
    end
  end.
(* the test of lines 677-679 on the translated point, and the tracker's box *)
Definition lost (w h x y : Z) (r : rect) : bool :=
  (x <? 0)%Z || (y <? 0)%Z || (w - 1 <? x)%Z || (h - 1 <? x)%Z || (rw r <? 3)%Z || (rh r <? 3)%Z.
Definition overlap (a b : rect) : option R := let i := IZR (area (meet a b)) in over i (IZR (area a + area b) - i).
(* UpdateCurrentResult: bw, bh, h, v are the entry of the ground truth for the frame, bgt_w, bgt_h, bgt_f its view. None: an error, an assertion or undefined behaviour *)
Definition update (s : test) (bgt_w bgt_h : Z) (bgt_f h v : R) (bw bh : Z) (r : rect) : option test :=
  if negb (queried s) then None
  else
    let c := lens (cam s) in
    let point := match (if negb (good_angles h v) then Bad else hv_to_xy c h v) with At x y => Some (x, y) | Behind => Some (int_max, int_max) | _ => None end in
    let box := match bounding_box {| width := bgt_w; height := bgt_h; fov := bgt_f; hori := h; verti := v |} c bw bh with
               | Box x y w h => Some {| rx := x; ry := y; rw := w; rh := h |} | Box_false => Some (gt_box s) | _ => None end in
    match point, box with
    | Some (x, y), Some b =>
      let l := lost (width c) (height c) x y r in
      let px := round_half (rx r + (rx r + rw r)) in
      let py := round_half (ry r + (ry r + rh r)) in
      Some {| first := first s; last := last s; total := total s; cam := cam s; queried := false;
              out_of_view := if l then (out_of_view s + 1)%Z else out_of_view s; processed := (processed s + 1)%Z;
              error_sum := if l then error_sum s else add (error_sum s) (Some (norm (x - px) (y - py)));
              offset_sum := if l then offset_sum s else add (offset_sum s) (Some (norm (x - Z.quot (width c) 2) (y - Z.quot (height c) 2)));
              overlap_sum := add (overlap_sum s) (overlap b r); gt_box := b |}
    | _, _ => None
    end.
(* EndTesting *)
Definition ratio (a : option R) (n : Z) : option R := match a with Some a => over a (IZR n) | None => None end.
Definition valid_frames (s : test) : Z := Z.max (processed s - out_of_view s) 1.
Definition avg_error (s : test) := ratio (error_sum s) (valid_frames s).
Definition avg_offset (s : test) := ratio (offset_sum s) (valid_frames s).
Definition avg_overlap (s : test) := ratio (overlap_sum s) (valid_frames s).
Definition fragmentation (s : test) := ratio (Some (IZR (out_of_view s))) (processed s).
Definition lost_ratio (s : test) := ratio (Some (IZR (out_of_view s))) (total s - 1).
Definition processed_ratio (s : test) := ratio (Some (IZR (processed s))) (total s - 1).

(* GetInitTargetBBox, for a frame of w x h and a target of bw x bh, lines 610-616 *)
Definition init_box (w h bw bh : Z) : rect := {| rx := Z.quot w 2 - Z.quot bw 2; ry := Z.quot h 2 - Z.quot bh 2; rw := bw; rh := bh |}.

Inductive call := Next (w : where_to) (t u t' u' : R) (ok : bool) | Result (bgt_w bgt_h : Z) (bgt_f h v : R) (bw bh : Z) (r : rect).
Definition run1 (s : test) (k : call) : option test :=
  match k with Next w t u t' u' ok => next_frame s w t u t' u' ok | Result a b f h v bw bh r => update s a b f h v bw bh r end.
Fixpoint run (s : test) (ks : list call) : option test := match ks with nil => Some s | k :: ks => match run1 s k with Some s => run s ks | None => None end end.
