(* Whole frames of the SuBSENSE background subtractor, modules/video/src/BackgroundSubtractorSuBSENSE.cpp lines 84-613, on images of 1 or 3
   channels: initialization, model refresh and frame processing with the contents of the samples. The feedback loop of a pixel and the
   frame-level component are those of Model/Subsense.v, buffers and random numbers those of Model/Lobster.v (an access outside a buffer is a fault).
   Floats are exact rationals. The morphological operations and the median filter (lines 536-553) are arbitrary functions of the raw mask;
   a frame gives the mean difference of the down-sampled averages (lines 569-584), which is an arbitrary non-negative number.
   Whether the image counts as large and its spread (lines 111-128) are parameters, whatever its size.
   Not modelled: images of 4 channels (accepted, and read as if they had 3), the debug display, the background images (as in LOBSTER). *)
From Coq Require Import ZArith NArith QArith Qround List Bool.
From Verif Require Import Lib.Grid Model.Bits Model.Distances Model.Sampling Model.Lbsp Model.RoiTable Model.Pbas.
From Verif Require Model.Subsense.
From Verif Require Import Model.Lobster.
Import ListNotations.
Open Scope Z_scope.

(* constructor parameters (lines 63-82 and BackgroundSubtractorLBSP.hpp:46-53), large images, spread, final mask and its dilation *)
Record config := { ch : Z; colour : Z; desc : Z; needed : nat; count : nat; avgs : Z; large : bool; spread3 : bool; rel : Q; offset : Z;
                   filtered : list (Z * bool) -> Z -> bool; grown : list (Z * bool) -> Z -> bool }.
Definition loop (c : config) : Subsense.config :=
  {| Subsense.grey := ch c =? 1; Subsense.min_color := colour c; Subsense.desc_offset := desc c; Subsense.required := needed c;
     Subsense.window := avgs c; Subsense.scaling := large c |}.
(* the parameters of the functions shared with LOBSTER *)
Definition low (c : config) (lut : Z -> Z) : Lobster.config :=
  {| channels := ch c; colour_threshold := 0; texture_threshold := 0; samples := count c; required := needed c; lut_of := lut; blur := fun _ _ => false |}.
Definition shape (c : config) : Lobster.config := low c (fun _ => 0).

(* samples, m_oLastColorFrame, m_oLastFGMask and random numbers used; m_oLastDescFrame; what the feedback loop keeps; m_oMeanLastDistFrame;
   the frame-level component; m_anLBSPThreshold_8bitLUT; m_fLastNonZeroDescRatio *)
Record state := { mem : Lobster.state; ldesc : Z -> Z; px : Z -> Subsense.pixel; moved : Z -> Q; glob : Subsense.global; lut : Z -> Z; nz : Q }.

(* what can go wrong: an access outside a buffer, the faults of the feedback loop, a modulo by zero *)
Inductive fault := Memory | Loop (f : Subsense.fault) | Modulo.
(* an lvAssert_ on the arguments that throws; an exception of cv::resize in the middle of a frame *)
Inductive outcome (A : Type) := Done (a : A) | Refused | Thrown | Fault (f : fault).
Arguments Done {A} a. Arguments Refused {A}. Arguments Thrown {A}. Arguments Fault {A} f.
Definition obind {A B} (o : outcome A) (f : A -> outcome B) : outcome B :=
  match o with Done a => f a | Refused => Refused | Thrown => Thrown | Fault e => Fault e end.
Definition access {A} (o : option A) : outcome A := match o with Some a => Done a | None => Fault Memory end.
Definition feedback {A} (o : Subsense.outcome A) : outcome A := match o with Subsense.Done a => Done a | Subsense.Fault f => Fault (Loop f) end.

Definition store1 (m : Z -> Z) (b : Z) (l : list Z) : Z -> Z :=
  fun i => if inside_buf (Z.of_nat (length l)) (i - b) then nth (Z.to_nat (i - b)) l 0 else m i.
Definition set1 {A} (m : Z -> A) (i : Z) (a : A) : Z -> A := fun j => if j =? i then a else m j.
(* the values of the channels of a pixel in a buffer *)
Definition fetch (c : config) (size : Z * Z) (m : Z -> Z) (i : Z) : option (list Z) :=
  all (map (fun k => get (fst size * snd size * ch c) m (i * ch c + k)) (zrange 0 (ch c))).
(* lines 207, 224-226 (340, 360-364): the colour of a pixel, its surroundings and its texture *)
Definition describe (c : config) (lut : Z -> Z) (size : Z * Z) (img : Z -> Z) (i : Z) : option (list Z * list (list Z) * list Z) :=
  bind (fetch c size img i) (fun v =>
  bind (all (map (lookup (low c lut) size img (point size i)) (zrange 0 (ch c)))) (fun vals =>
  bind (all (map (fun cv => texture (low c lut) (snd cv) (fst cv)) (combine v vals))) (fun d => Some (v, vals, d)))).

(* ---- lines 84-108 *)
Definition refresh_one (c : config) (rnd : nat -> Z) (size : Z * Z) (ld : Z -> Z) (force : bool) (i : Z) (m : Lobster.state) (k : nat) : option Lobster.state :=
  let q := getSamplePosition_7x7_std2 (rnd (used m)) (point size i) 2 size in
  let sp := place size q in
  bind (if force then Some false else get (fst size * snd size) (fgmask m) sp) (fun fg : bool =>
  if fg then Some (tick m)
  else bind (fetch c size (seen m) sp) (fun v => bind (fetch c size ld sp) (fun d => write (shape c) size (Nat.modulo k (count c)) (i * ch c) v d (tick m)))).
Definition refresh (c : config) (rnd : nat -> Z) (size : Z * Z) (ld : Z -> Z) (force : bool) (start num : nat) (pxs : list Z) (m : Lobster.state) : option Lobster.state :=
  iter (fun m i =>
    bind (if force then Some false else get (fst size * snd size) (fgmask m) i) (fun fg : bool =>
    if fg then Some m else iter (refresh_one c rnd size ld force i) (seq start num) m)) pxs m.
(* the product of line 89 is rounded to single precision in the code *)
Definition refreshModel (c : config) (rnd : nat -> Z) (size : Z * Z) (ld : Z -> Z) (frac : Q) (force : bool) (pxs : list Z) (m : Lobster.state) : outcome Lobster.state :=
  if Qle_bool frac 0 || negb (Qle_bool frac 1) then Refused
  else if Qle_bool 1 frac then access (refresh c rnd size ld force 0 (count c) pxs m)
  else access (refresh c rnd size ld force (Z.to_nat (rnd (used m) mod Z.of_nat (count c)))
                       (Z.to_nat (Qfloor (frac * inject_Z (Z.of_nat (count c))))) pxs (tick m)).

(* ---- the table of texture thresholds: BackgroundSubtractorLBSP.cpp:29-30 and 42-43; lines 557-560; lines 562-565 *)
Definition first_lut (c : config) (t : Z) : Z :=
  sat_uchar (half_even (if ch c =? 1 then (inject_Z t * rel c + inject_Z (offset c)) / 3 else inject_Z t * rel c + inject_Z (offset c))%Q).
Definition least (c : config) (t : Z) : Z := sat_uchar (offset c + Qceiling (inject_Z t * rel c / 4)).
Definition most (c : config) : Z := sat_uchar (half_even (inject_Z (offset c) + 255 * rel c)%Q).
Definition wrap8 (z : Z) : Z := z mod 256.
Definition adapt (c : config) (now before : Q) (l : Z -> Z) : Z -> Z :=
  if Qltb now (1 # 10) && Qltb before (1 # 10) then fun t => if least c t <? l t then wrap8 (l t - 1) else l t
  else if Qltb (1 # 2) now && Qltb (1 # 2) before then fun t => if l t <? most c then wrap8 (l t + 1) else l t
  else l.

(* ---- BackgroundSubtractorLBSP.cpp:31-37 and 44-63: the textures of the first image; [pxs] are the pixels of the region *)
Fixpoint first_desc (c : config) (size : Z * Z) (img : Z -> Z) (pxs : list Z) (ld : Z -> Z) : option (Z -> Z) :=
  match pxs with
  | [] => Some ld
  | i :: l =>
    let p := point size i in
    if (2 <? fst p) && (2 <? snd p) && (fst p <? fst size - 2) && (snd p <? snd size - 2)
    then bind (describe c (first_lut c) size img i) (fun s => first_desc c size img l (store1 ld (i * ch c) (snd s)))
    else first_desc c size img l ld
  end.

(* lines 110-182 *)
Definition initialize (c : config) (rnd : nat -> Z) (current given : option mask) (size : Z * Z) (img : Z -> Z) : outcome (list Z * state) :=
  match initialize_roi 2 current given (snd size) (fst size) with
  | None => Refused
  | Some roi =>
    let t := tables_of roi (ch c) img in
    obind (access (first_desc c size img (RoiTable.lut t) (fun _ => 0))) (fun ld =>
    obind (refreshModel c rnd size ld 1 false (RoiTable.lut t)
             {| col := fun _ _ => 0; dsc := fun _ _ => 0; seen := fun i => nth (Z.to_nat i) (RoiTable.last t) 0; fgmask := fun _ => false; used := 0 |}) (fun m =>
    Done (RoiTable.lut t, {| mem := m; ldesc := ld; px := fun _ => Subsense.start (loop c); moved := fun _ => 0%Q; glob := Subsense.start_global (loop c);
                             lut := first_lut c; nz := 0%Q |})))
  end.

(* ---- lines 232-239 (373-380): the distances of a channel to a sample *)
Definition channel_distance (c : config) (lut : Z -> Z) (v : Z) (vals : list Z) (e b d : Z) : option (Z * Z) :=
  bind (L1dist 8 v b) (fun dist =>
  bind (hdist 2 (Z.to_N e) (Z.to_N d)) (fun intra =>
  bind (texture (low c lut) vals b) (fun t =>
  bind (hdist 2 (Z.to_N t) (Z.to_N d)) (fun inter => Some (dist, (Z.of_N intra + Z.of_N inter) / 2))))).
Definition sample_distances (c : config) (lut : Z -> Z) (size : Z * Z) (m : Lobster.state) (i : Z) (s : list Z * list (list Z) * list Z) (k : nat) : option Subsense.sample :=
  bind (fetch c size (col m k) i) (fun b => bind (fetch c size (dsc m k) i) (fun d =>
  all (map (fun x => channel_distance c lut (fst (fst (fst (fst x)))) (snd (fst (fst (fst x)))) (snd (fst (fst x))) (snd (fst x)) (snd x))
           (combine (combine (combine (combine (fst (fst s)) (snd (fst s))) (snd s)) b) d)))).
(* lines 254 and 396 *)
Definition last_distance (c : config) (v e lv le : list Z) : option Q :=
  bind (all (map (fun x => L1dist 8 (snd x) (fst x)) (combine v lv))) (fun a =>
  bind (all (map (fun x => hdist 2 (Z.to_N (snd x)) (Z.to_N (fst x))) (combine e le))) (fun h =>
  Some ((inject_Z (fold_right Z.add 0%Z a) / inject_Z (255 * ch c) + inject_Z (fold_right Z.add 0%Z (map Z.of_N h)) / inject_Z (16 * ch c)) / 2)%Q)).

(* rand()%n==0 *)
Definition lottery (r n : Z) : outcome bool := if n =? 0 then Fault Modulo else Done (r mod n =? 0).
(* storing the pixel in a sample chosen at random, at the buffer place of pixel j *)
Definition learn (c : config) (rnd : nat -> Z) (size : Z * Z) (j : Z) (v e : list Z) (m : Lobster.state) : outcome Lobster.state :=
  access (write (shape c) size (Z.to_nat (rnd (used m) mod Z.of_nat (count c))) (j * ch c) v e (tick m)).
(* lines 264-268 (406-412) *)
Definition absorb (c : config) (rnd : nat -> Z) (size : Z * Z) (g : Subsense.global) (i : Z) (v e : list Z) (m : Lobster.state) : outcome Lobster.state :=
  if Subsense.cooldown g =? 0 then Done m
  else obind (lottery (rnd (used m)) 2) (fun b : bool => if b then learn c rnd size i v e (tick m) else Done (tick m)).
(* lines 278-300 (422-446): the raw averages and the motion are those at that moment; [n] is nLearningRate *)
Definition spread (c : config) (rnd : nat -> Z) (size : Z * Z) (g : Subsense.global) (n : Z) (unstable : bool) (raw motion : Z -> Q) (i : Z) (v e : list Z) (m : Lobster.state) : outcome Lobster.state :=
  obind (lottery (rnd (used m)) n) (fun b : bool =>
  obind (if b then learn c rnd size i v e (tick m) else Done (tick m)) (fun m2 =>
  let near := spread3 c && negb unstable in
  obind (access ((if near then getNeighborPosition_3x3 else getNeighborPosition_5x5) (rnd (used m2)) (point size i) 2 size)) (fun q =>
  let m3 := tick m2 in
  let r := rnd (used m3) in
  let j := place size q in
  obind (access (get (fst size * snd size) motion j)) (fun d =>
  obind (access (get (fst size * snd size) raw j)) (fun s =>
  obind (lottery r (if near then n else n / 2 + 1)) (fun b1 : bool =>
  obind (if b1 then Done true else if Qltb (995 # 1000) s && Qltb d (1 # 100) then lottery r (Qfloor (Subsense.low_cap g)) else Done false) (fun b2 : bool =>
  if b2 then learn c rnd size j v e (tick m3) else Done (tick m3)))))))).

(* line 277 (421); [ov] is the learning rate given, rounded up, 2^64-1 for an infinite one *)
Definition rate_of (ov : Z) (t : Q) : Z := if 0 <? ov then ov else Qceiling t.
(* lines 326-327 (475-476) *)
Definition textured (c : config) (e : list Z) : option bool :=
  bind (all (map (fun d => popcount 2 (Z.to_N d)) e)) (fun h => Some ((if ch c =? 1 then 2 else 4) <=? fold_right Z.add 0 (map Z.of_N h))).

(* lines 202-330 (333-482) *)
Definition apply_pixel (c : config) (rnd : nat -> Z) (ov : Z) (size : Z * Z) (img : Z -> Z) (al as_ : Q) (st : state) (i : Z) : outcome ((bool * bool) * state) :=
  obind (access (describe c (lut st) size img i)) (fun s =>
  let v := fst (fst s) in
  let e := snd s in
  obind (access (all (map (sample_distances c (lut st) size (mem st) i s) (seq 0 (count c))))) (fun smp =>
  obind (access (fetch c size (seen (mem st)) i)) (fun lv =>
  obind (access (fetch c size (ldesc st) i)) (fun le =>
  obind (access (last_distance c v e lv le)) (fun x =>
  obind (feedback (Subsense.pixel_step (loop c) (glob st) al as_
           {| Subsense.samples := smp; Subsense.final := false; Subsense.dilated := false; Subsense.diff_ratio := 0%Q |} (px st i))) (fun r =>
  let px1 := set1 (px st) i (snd r) in
  let moved1 := set1 (moved st) i (Subsense.roll (moved st i) as_ x) in
  obind (if fst r : bool then absorb c rnd size (glob st) i v e (mem st)
         else spread c rnd size (glob st) (rate_of ov (Subsense.rate (px st i))) (Subsense.unstable (snd r)) (fun j => Subsense.raw_st (px1 j)) moved1 i v e (mem st)) (fun m =>
  obind (access (textured c e)) (fun nzb =>
  Done ((fst r, nzb),
    {| mem := {| col := col m; dsc := dsc m; seen := store1 (seen m) (i * ch c) v; fgmask := fgmask m; used := used m |};
       ldesc := store1 (ldesc st) (i * ch c) e; px := px1; moved := moved1; glob := glob st; lut := lut st; nz := nz st |}))))))))).
Fixpoint apply_pixels (c : config) (rnd : nat -> Z) (ov : Z) (size : Z * Z) (img : Z -> Z) (al as_ : Q) (l : list Z) (st : state) : outcome (list (Z * (bool * bool)) * state) :=
  match l with
  | [] => Done ([], st)
  | i :: l' =>
      obind (apply_pixel c rnd ov size img al as_ st i) (fun r =>
      obind (apply_pixels c rnd ov size img al as_ l' (snd r)) (fun r' => Done ((i, fst r) :: fst r', snd r')))
  end.

(* lines 536-554 at a pixel: what depends on the final mask; the pixel before the frame and after the loop *)
Definition close_pixel (al as_ : Q) (fin dil : bool) (p0 p : Subsense.pixel) : Subsense.pixel :=
  let f := if fin then 1%Q else 0%Q in
  {| Subsense.rate := Subsense.rate p; Subsense.radius := Subsense.radius p; Subsense.modulator := Subsense.modulator p;
     Subsense.min_lt := Subsense.min_lt p; Subsense.min_st := Subsense.min_st p; Subsense.raw_lt := Subsense.raw_lt p; Subsense.raw_st := Subsense.raw_st p;
     Subsense.final_lt := Subsense.roll (Subsense.final_lt p0) al f; Subsense.final_st := Subsense.roll (Subsense.final_st p0) as_ f;
     Subsense.unstable := Subsense.unstable p;
     Subsense.blinks := (Subsense.last_blink p || Subsense.last_blink p0) && Subsense.clear p0 && negb dil;
     Subsense.last_raw := Subsense.last_raw p; Subsense.last_blink := Subsense.last_blink p; Subsense.last_final := fin; Subsense.clear := negb dil |}.
Definition with_rate (t : Q) (p : Subsense.pixel) : Subsense.pixel :=
  {| Subsense.rate := t; Subsense.radius := Subsense.radius p; Subsense.modulator := Subsense.modulator p;
     Subsense.min_lt := Subsense.min_lt p; Subsense.min_st := Subsense.min_st p; Subsense.raw_lt := Subsense.raw_lt p; Subsense.raw_st := Subsense.raw_st p;
     Subsense.final_lt := Subsense.final_lt p; Subsense.final_st := Subsense.final_st p; Subsense.unstable := Subsense.unstable p; Subsense.blinks := Subsense.blinks p;
     Subsense.last_raw := Subsense.last_raw p; Subsense.last_blink := Subsense.last_blink p; Subsense.last_final := Subsense.last_final p; Subsense.clear := Subsense.clear p |}.
Definition raw (m : list (Z * (bool * bool))) : list (Z * bool) := map (fun x => (fst x, fst (snd x))) m.
Definition textured_ratio (m : list (Z * (bool * bool))) : Q :=
  inject_Z (Z.of_nat (length (filter (fun x => snd (snd x)) m))) / inject_Z (Z.of_nat (length m)).

(* apply, lines 184-613: the raw mask and the new state *)
Definition apply (c : config) (rnd : nat -> Z) (ov : Z) (ratio : Q) (size : Z * Z) (pxs : list Z) (img : Z -> Z) (st : state) : outcome (list (Z * bool) * state) :=
  let g := glob st in
  let n := Subsense.frame_no g + 1 in
  let g1 := {| Subsense.frame_no := n; Subsense.low_cap := Subsense.low_cap g; Subsense.up_cap := Subsense.up_cap g; Subsense.auto_reset := Subsense.auto_reset g;
               Subsense.since_reset := Subsense.since_reset g; Subsense.cooldown := Subsense.cooldown g |} in
  match Subsense.factor n (avgs c), Subsense.factor n (avgs c / 4) with
  | Some al, Some as_ =>
    obind (apply_pixels c rnd ov size img al as_ pxs {| mem := mem st; ldesc := ldesc st; px := px st; moved := moved st; glob := g1; lut := lut st; nz := nz st |}) (fun r =>
    let m := raw (fst r) in
    let s := snd r in
    let m1 := {| col := col (mem s); dsc := dsc (mem s); seen := seen (mem s); fgmask := filtered c m; used := used (mem s) |} in
    let now := textured_ratio (fst r) in
    let px1 := fun i => close_pixel al as_ (filtered c m i) (grown c m i) (px st i) (px s i) in
    let lut1 := adapt c now (nz s) (lut s) in
    if large c && ((fst size / 8 =? 0) || (snd size / 8 =? 0)) then Thrown
    else obind (feedback (Subsense.global_step (loop c) ratio g1)) (fun rg =>
      obind (if fst rg : bool then refreshModel c rnd size (ldesc s) (1 # 10) false pxs m1 else Done m1) (fun m2 =>
      Done (m, {| mem := m2; ldesc := ldesc s; px := if fst rg then fun i => with_rate 1 (px1 i) else px1; moved := moved s; glob := snd rg; lut := lut1; nz := now |}))))
  | _, _ => Fault (Loop Subsense.NoFrame)
  end.

(* what can be done between initialization and now; a refused call leaves everything as it is *)
Inductive event := Frame (img : Z -> Z) (ov : Z) (ratio : Q) | Refresh (frac : Q) (force : bool).
Definition act (c : config) (rnd : nat -> Z) (size : Z * Z) (pxs : list Z) (e : event) (st : state) : outcome state :=
  match e with
  | Frame img ov ratio => obind (apply c rnd ov ratio size pxs img st) (fun r => Done (snd r))
  | Refresh frac force => obind (refreshModel c rnd size (ldesc st) frac force pxs (mem st)) (fun m =>
      Done {| mem := m; ldesc := ldesc st; px := px st; moved := moved st; glob := glob st; lut := lut st; nz := nz st |})
  end.
Fixpoint play (c : config) (rnd : nat -> Z) (size : Z * Z) (pxs : list Z) (l : list event) (st : state) : outcome state :=
  match l with
  | [] => Done st
  | e :: l' => match act c rnd size pxs e st with Done st' => play c rnd size pxs l' st' | Refused => play c rnd size pxs l' st | Thrown => Thrown | Fault f => Fault f end
  end.
