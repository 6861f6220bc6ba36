(* The LOBSTER background subtractor on the CPU, modules/video/src/BackgroundSubtractorLOBSTER.cpp lines 410-600: initialization, frame
   processing, model refresh and background image, on images of 1, 3 or 4 channels (all that initialization accepts).
   Images and models are flat buffers without row gaps (checked at initialization and in line 466); an access outside a buffer is [None].
   Random numbers are taken in order from a sequence standing for rand(), whose values are non-negative. The learning rate is given rounded up,
   an infinite one being 2^64-1 (line 470). The table of texture thresholds is given (BackgroundSubtractorLBSP.cpp:29-30, 42-43: see Model/Lbsp.v).
   The median filter on the final mask (line 578) is an arbitrary function. m_oLastDescFrame only passes values to the models and is left out.
   The GPU version is in Model/GpuLobster.v. Not modelled: getBackgroundDescriptorsImage. *)
From Coq Require Import ZArith NArith QArith Qround List Bool.
From Verif Require Import Lib.Grid Model.Bits Model.Distances Model.Sampling Model.Lbsp Model.RoiTable.
Import ListNotations.
Open Scope Z_scope.

Record config := { channels : Z; colour_threshold : Z; texture_threshold : Z; samples : nat; required : nat; lut_of : Z -> Z;
                   blur : list (Z * bool) -> Z -> bool }.

(* m_voBGColorSamples and m_voBGDescSamples by sample and place in the buffer; m_oLastColorFrame; m_oLastFGMask (whether not zero);
   how many random numbers were used *)
Record state := { col : nat -> Z -> Z; dsc : nat -> Z -> Z; seen : Z -> Z; fgmask : Z -> bool; used : nat }.

Definition inside_buf (n i : Z) : bool := (0 <=? i) && (i <? n).
Definition get {A} (n : Z) (m : Z -> A) (i : Z) : option A := if inside_buf n i then Some (m i) else None.
Fixpoint all {A} (l : list (option A)) : option (list A) :=
  match l with
  | [] => Some []
  | None :: _ => None
  | Some a :: l' => match all l' with Some r => Some (a :: r) | None => None end
  end.
Definition place (size p : Z * Z) : Z := fst size * snd p + fst p.
Definition point (size : Z * Z) (i : Z) : Z * Z := (i mod fst size, i / fst size).
Definition total (c : config) (size : Z * Z) : Z := fst size * snd size * channels c.

(* LBSP.hpp:164-167, 185-188: the 16 values around a point in one channel; steps are those of the image *)
Definition lookup (c : config) (size : Z * Z) (img : Z -> Z) (q : Z * Z) (ch : Z) : option (list Z) :=
  all (map (fun n => get (total c size) img ((snd q + nth n off_y 0) * (fst size * channels c) + (fst q + nth n off_x 0) * channels c + ch)) (seq 0 16)).
(* LBSP.hpp:192-225 *)
Definition texture (c : config) (vals : list Z) (ref : Z) : option Z := thr_scalar vals ref (lut_of c ref).

(* consecutive stores to a buffer of n places *)
Definition store_list (m : nat -> Z -> Z) (s : nat) (b : Z) (l : list Z) : nat -> Z -> Z :=
  fun s' i => if Nat.eqb s' s && inside_buf (Z.of_nat (length l)) (i - b) then nth (Z.to_nat (i - b)) l 0 else m s' i.
Definition write (c : config) (size : Z * Z) (s : nat) (b : Z) (v d : list Z) (st : state) : option state :=
  if (0 <=? b) && (b + Z.of_nat (length v) <=? total c size)
  then Some {| col := store_list (col st) s b v; dsc := store_list (dsc st) s b d; seen := seen st; fgmask := fgmask st; used := used st |}
  else None.
Definition tick (st : state) : state := {| col := col st; dsc := dsc st; seen := seen st; fgmask := fgmask st; used := S (used st) |}.

Fixpoint iter {A} (f : state -> A -> option state) (l : list A) (st : state) : option state :=
  match l with [] => Some st | a :: l' => match f st a with Some st' => iter f l' st' | None => None end end.

(* lines 421-436: one sample of one pixel; the channels are stored together *)
Definition refresh_one (c : config) (rnd : nat -> Z) (size : Z * Z) (force : bool) (i : Z) (st : state) (k : nat) : option state :=
  let q := getSamplePosition_7x7_std2 (rnd (used st)) (point size i) 2 size in
  let sp := place size q in
  match (if force then Some false else get (fst size * snd size) (fgmask st) sp) with
  | None => None
  | Some true => Some (tick st)
  | Some false =>
    match all (map (fun ch => get (total c size) (seen st) (sp * channels c + ch)) (zrange 0 (channels c))) with
    | None => None
    | Some v =>
      match all (map (fun ch => bind (lookup c size (seen st) q ch) (fun vals => texture c vals (nth (Z.to_nat ch) v 0))) (zrange 0 (channels c))) with
      | None => None
      | Some d => write c size (Nat.modulo k (samples c)) (i * channels c) v d (tick st)
      end
    end
  end.
(* lines 417-439 *)
Definition refresh (c : config) (rnd : nat -> Z) (size : Z * Z) (force : bool) (start count : nat) (pxs : list Z) (st : state) : option state :=
  iter (fun st i =>
    match (if force then Some false else get (fst size * snd size) (fgmask st) i) with
    | None => None
    | Some true => Some st
    | Some false => iter (refresh_one c rnd size force i) (seq start count) st
    end) pxs st.
(* outcomes of the public functions: an lvAssert_ that throws, an access outside a buffer *)
Inductive outcome (A : Type) := Done (a : A) | Refused | Fault.
Arguments Done {A} a. Arguments Refused {A}. Arguments Fault {A}.
Definition finish {A} (o : option A) : outcome A := match o with Some a => Done a | None => Fault end.
(* lines 410-440; the product of line 415 is rounded to single precision in the code *)
Definition refreshModel (c : config) (rnd : nat -> Z) (size : Z * Z) (frac : Q) (force : bool) (pxs : list Z) (st : state) : outcome state :=
  if Qle_bool frac 0 || negb (Qle_bool frac 1) then Refused
  else if Qle_bool 1 frac then finish (refresh c rnd size force 0 (samples c) pxs st)
  else finish (refresh c rnd size force (Z.to_nat (rnd (used st) mod Z.of_nat (samples c)))
                       (Z.to_nat (Qfloor (frac * inject_Z (Z.of_nat (samples c))))) pxs (tick st)).

(* lines 442-457 with IIBackgroundSubtractor::initialize_common: the region in use, its pixels, the model *)
Definition initialize (c : config) (rnd : nat -> Z) (current given : option mask) (size : Z * Z) (img : Z -> Z) : outcome (list Z * state) :=
  match initialize_roi 2 current given (snd size) (fst size) with
  | None => Refused
  | Some roi =>
    let t := tables_of roi (channels c) img in
    match refreshModel c rnd size 1 true (lut t)
            {| col := fun _ _ => 0; dsc := fun _ _ => 0; seen := fun i => nth (Z.to_nat i) (last t) 0; fgmask := fun _ => false; used := 0 |} with
    | Done st => Done (lut t, st)
    | Refused => Refused
    | Fault => Fault
    end
  end.

(* the version of the frame loop that is used: lines 471, 516, 525-528 *)
Definition stride (c : config) : Z := if channels c =? 1 then 1 else 3.

(* lines 484-491 *)
Definition match1 (c : config) (cur : Z) (vals : list Z) (b d : Z) : option bool :=
  bind (L1dist 8 cur b) (fun dist =>
  if colour_threshold c / 2 <? dist then Some false
  else bind (texture c vals b) (fun e => bind (hdist 2 (Z.to_N e) (Z.to_N d)) (fun h => Some (negb (texture_threshold c <? Z.of_N h))))).
(* lines 517-520, 536-550; the list holds, for each channel: value, lookup, sample value, sample descriptor *)
Fixpoint match3 (c : config) (l : list (Z * list Z * Z * Z)) (tc td : Z) : option bool :=
  match l with
  | [] => Some ((td <=? texture_threshold c * 3) && (tc <=? colour_threshold c * 3))
  | (cur, vals, b, d) :: l' =>
      bind (L1dist 8 cur b) (fun dist =>
      if colour_threshold c * 3 / 2 <? dist then Some false
      else bind (texture c vals b) (fun e => bind (hdist 2 (Z.to_N e) (Z.to_N d)) (fun h =>
        if texture_threshold c * 3 / 2 <? Z.of_N h then Some false else match3 c l' (tc + dist) (td + Z.of_N h))))
  end.
Definition matches (c : config) (cur : list Z) (vals : list (list Z)) (b d : list Z) : option bool :=
  if channels c =? 1 then match1 c (hd 0 cur) (hd [] vals) (hd 0 b) (hd 0 d)
  else match3 c (combine (combine (combine cur vals) b) d) 0 0.

(* lines 480-495, 532-553 *)
Fixpoint good_count (c : config) (size : Z * Z) (st : state) (i : Z) (cur : list Z) (vals : list (list Z)) (l : list nat) (good : nat) : option nat :=
  match l with
  | [] => Some good
  | s :: l' =>
    if Nat.ltb good (required c) then
      bind (all (map (fun ch => get (total c size) (col st s) (i * stride c + ch)) (zrange 0 (stride c)))) (fun b =>
      bind (all (map (fun ch => get (total c size) (dsc st s) (i * stride c + ch)) (zrange 0 (stride c)))) (fun d =>
      bind (matches c cur vals b d) (fun m => good_count c size st i cur vals l' (if m then S good else good))))
    else Some good
  end.

(* lines 473-513, 524-575: whether the pixel is foreground, and the updated model *)
Definition apply_pixel (c : config) (rnd : nat -> Z) (rate : Z) (size : Z * Z) (img : Z -> Z) (st : state) (i : Z) : option (bool * state) :=
  let chs := zrange 0 (stride c) in
  bind (all (map (fun ch => get (total c size) img (i * stride c + ch)) chs)) (fun cur =>
  bind (all (map (lookup c size img (point size i)) chs)) (fun vals =>
  bind (good_count c size st i cur vals (seq 0 (samples c)) 0) (fun good =>
  if Nat.ltb good (required c) then Some (true, st)
  else
  bind (all (map (fun cv => texture c (snd cv) (fst cv)) (combine cur vals))) (fun d =>
    let st0 := tick st in
    bind (if rnd (used st) mod rate =? 0
          then write c size (Z.to_nat (rnd (used st0) mod Z.of_nat (samples c))) (i * stride c) cur d (tick st0)
          else Some st0) (fun st1 =>
    let st2 := tick st1 in
    bind (if rnd (used st1) mod rate =? 0
          then bind (getNeighborPosition_3x3 (rnd (used st2)) (point size i) 2 size) (fun q =>
               let st3 := tick st2 in
               write c size (Z.to_nat (rnd (used st3) mod Z.of_nat (samples c)))
                     (fst size * channels c * snd q + stride c * fst q) cur d (tick st3))
          else Some st2) (fun st4 => Some (false, st4))))))).

Fixpoint apply_pixels (c : config) (rnd : nat -> Z) (rate : Z) (size : Z * Z) (img : Z -> Z) (l : list Z) (st : state) : option (list (Z * bool) * state) :=
  match l with
  | [] => Some ([], st)
  | i :: l' =>
      bind (apply_pixel c rnd rate size img st i) (fun r =>
      bind (apply_pixels c rnd rate size img l' (snd r)) (fun r' => Some ((i, fst r) :: fst r', snd r')))
  end.

(* lines 459-581: the mask before the median filter, and the new model; pixels that are not listed are 0 in the mask *)
Definition apply (c : config) (rnd : nat -> Z) (rate : Z) (size : Z * Z) (pxs : list Z) (img : Z -> Z) (st : state) : outcome (list (Z * bool) * state) :=
  if rate <=? 0 then Refused
  else finish (bind (apply_pixels c rnd rate size img pxs st) (fun r =>
    Some (fst r, {| col := col (snd r); dsc := dsc (snd r); seen := img; fgmask := blur c (fst r); used := used (snd r) |}))).

(* what can be done to a model between its initialization and now *)
Inductive event := Frame (img : Z -> Z) (rate : Z) | Refresh (frac : Q) (force : bool).
Definition act (c : config) (rnd : nat -> Z) (size : Z * Z) (pxs : list Z) (e : event) (st : state) : outcome state :=
  match e with
  | Frame img rate => match apply c rnd rate size pxs img st with Done r => Done (snd r) | Refused => Refused | Fault => Fault end
  | Refresh frac force => refreshModel c rnd size frac force pxs st
  end.
(* a refused call leaves the model as it is *)
Fixpoint play (c : config) (rnd : nat -> Z) (size : Z * Z) (pxs : list Z) (l : list event) (st : state) : option state :=
  match l with
  | [] => Some st
  | e :: l' => match act c rnd size pxs e st with Done st' => play c rnd size pxs l' st' | Refused => play c rnd size pxs l' st | Fault => None end
  end.

(* lines 583-600: one byte of the background image; sums are exact here *)
Definition background (c : config) (st : state) (i : Z) : Z :=
  sat_uchar (half_even (fold_left (fun a s => a + inject_Z (col st s i) / inject_Z (Z.of_nat (samples c))) (seq 0 (samples c)) 0)%Q).
