(* The PAWCS background subtractor, modules/video/src/BackgroundSubtractorPAWCS.cpp, on images of 1 or 3 channels: initialization, also of an object that
   was used before, model refresh, frame processing and background images. Dictionaries are those of Model/WordDict.v, buffers, descriptors and textures
   those of Model/Lobster.v and Model/SubsenseFrame.v, what is kept for a pixel is the record of Model/Subsense.v.
   Floats are exact rationals; counters of frames and occurrences are integers that do not wrap around; random numbers are taken in order from a
   sequence. The morphological operations and the median filter (lines 1447-1459) are arbitrary functions of the raw mask. A frame gives the three
   ratios of the frame-level component (lines 1478-1493), which are arbitrary numbers. The number of global words (lines 449-467) is a parameter, the
   size of the median filter is left out. The descriptors of global words are never read and left out.
   Not modelled: images of 4 channels (accepted, and read as if they had 3), a change of the number of channels of an object, the debug display. *)
From Coq Require Import ZArith NArith QArith Qround Qminmax List Bool.
From Verif Require Import Lib.Grid Model.Bits Model.Distances Model.Sampling Model.Lbsp Model.RoiTable Model.Pbas.
From Verif Require Model.Subsense Model.SubsenseFrame.
From Verif Require Import Model.Lobster Model.WordDict.
Import ListNotations.
Open Scope Z_scope.

(* constructor parameters (lines 83-104 and BackgroundSubtractorLBSP.hpp:46-53): channels, colour threshold, descriptor offset, m_nMaxLocalWords, the number
   of global words, samples for averages, relative threshold and offset of textures; final mask and its dilation *)
Record config := { ch : Z; minc : Z; doff : Z; most : nat; globals : nat; avgs : Z; rel : Q; offset : Z;
                   filtered : list (Z * bool) -> Z -> bool; grown : list (Z * bool) -> Z -> bool }.
(* lines 447, 464-467: m_nCurrLocalWords *)
Definition locals (c : config) : nat := if ch c =? 1 then Nat.max (most c / 2) 1 else most c.
(* the parameters of the functions shared with SuBSENSE *)
Definition sub (c : config) : SubsenseFrame.config :=
  {| SubsenseFrame.ch := ch c; SubsenseFrame.colour := minc c; SubsenseFrame.desc := doff c; SubsenseFrame.needed := 1; SubsenseFrame.count := 1;
     SubsenseFrame.avgs := avgs c; SubsenseFrame.large := false; SubsenseFrame.spread3 := false; SubsenseFrame.rel := rel c; SubsenseFrame.offset := offset c;
     SubsenseFrame.filtered := filtered c; SubsenseFrame.grown := grown c |}.

(* BackgroundSubtractorPAWCS.hpp:68-88 *)
Record word := { colour : list Z; tex : list Z; first : Z; latest : Z; occ : Z }.
(* oFeature.anColor, nDescBITS, fLatestWeight, oSpatioOccMap: None is the empty matrix *)
Record gword := { gcol : list Z; gbits : Z; gweight : Q; gmap : option (Z -> Q) }.
Definition no_word : word := {| colour := []; tex := []; first := 0; latest := 0; occ := 0 |}.
Definition no_gword : gword := {| gcol := []; gbits := 0; gweight := 0; gmap := None |}.
(* the words of a resized vector, all zero *)
Definition blank (c : config) : word := {| colour := map (fun _ => 0) (zrange 0 (ch c)); tex := map (fun _ => 0) (zrange 0 (ch c)); first := 0; latest := 0; occ := 0 |}.
Definition gblank (c : config) : gword := {| gcol := map (fun _ => 0) (zrange 0 (ch c)); gbits := 0; gweight := 0; gmap := None |}.

(* lines 1595-1597 *)
Definition weight (now off : Z) (w : word) : Q := (inject_Z (occ w) / inject_Z ((latest w - first w) + (now - latest w) * 2 + off))%Q.

(* the region: image size, m_oROI, pixels in use (m_vnPxIdxLUT) *)
Record scene := { size : Z * Z; roi : Z -> Z; pxs : list Z }.
Definition area (s : scene) : Z := fst (size s) * snd (size s).
(* nModelIdx of a pixel of the region (lines 524-536): its place in m_vnPxIdxLUT *)
Fixpoint place_in (i : Z) (l : list Z) : Z := match l with [] => 0 | j :: l' => if j =? i then 0 else 1 + place_in i l' end.
(* lines 448, 529: size of the maps of global words, nGlobalWordMapLookupIdx *)
Definition map_size (s : scene) : Z := (fst (size s) / 2) * (snd (size s) / 2).
Definition map_place (s : scene) (i : Z) : Z := let p := point (size s) i in (snd p / 2) * (fst (size s) / 2) + fst p / 2.

(* what changes from frame to frame: m_nFrameIdx, m_nLocalWordWeightOffset, m_bUsingMovingCamera, m_bAutoModelResetEnabled, m_nFramesSinceLastReset,
   m_nModelResetCooldown, m_anLBSPThreshold_8bitLUT, m_fLastNonFlatRegionRatio *)
Record level := { frame : Z; woff : Z; moving : bool; auto : bool; since : Z; cool : Z; lut : Z -> Z; nz : Q }.
(* dictionaries, vpGlobalDictSortLUT as places in the list of global words, m_oIllumUpdtRegionMask, random numbers used, last colours and descriptors,
   what is kept for pixels, m_oLastFGMask_dilated *)
Record state := { dict : store word; glob : store gword; order : Z -> list Z; illum : Z -> Z; used : nat; seen : Z -> Z; ldesc : Z -> Z;
                  px : Z -> Subsense.pixel; dil : Z -> bool; lev : level }.

(* rand()%n==0 *)
Definition lottery (r n : Z) : outcome bool := if n =? 0 then Fault Modulo else Done (r mod n =? 0).
(* rand()%n *)
Definition remainder (r n : Z) : outcome Z := if n =? 0 then Fault Modulo else Done (r mod n).
Definition count_bits (l : list Z) : outcome Z := obind (access (popcount_arr 8 2 (map Z.to_N l) 0)) (fun n => Done (Z.of_N n)).
Definition texture_gap (a b : list Z) : outcome Z := obind (access (hdist_arr 8 2 (map Z.to_N a) (map Z.to_N b) 0)) (fun n => Done (Z.of_N n)).
(* lv::L1dist, lv::cdist and lv::cmixdist of two colours *)
Definition plain_gap (a b : list Z) : outcome Z := access (L1dist_arr 8 8 a b 0).
Definition angle_gap (a b : list Z) : outcome Z := access (cdist 8 a b).
Definition colour_gap (c : config) (a b : list Z) : outcome Z :=
  if ch c =? 1 then plain_gap a b else obind (plain_gap a b) (fun l => obind (angle_gap a b) (fun d => Done (cmixdist l d))).

(* ---- lines 117-118, 271-272, 680-681, 997-998: the thresholds of a pixel. sqrt(R)*m rounded down is the integer square root of R*m*m rounded down *)
Definition reach (c : config) (p : Subsense.pixel) : Z := Z.sqrt (Qfloor (Subsense.radius p * inject_Z (minc c * minc c))).
Definition thresholds (c : config) (p : Subsense.pixel) : outcome (Z * Z) :=
  if 64 <=? Subsense.shift_amount p then Fault Shift64
  else let d := 2 ^ Subsense.shift_amount p + doff c + (if Subsense.unstable p then doff c else 0) in
       Done (if ch c =? 1 then (reach c p / 2, Subsense.u64 d) else (reach c p * 3, Subsense.u64 (d * 3))).

(* ---- refreshModel *)
(* lines 146-148, 301-303 *)
Definition alike (c : config) (ths : Z * Z) (v e : list Z) (w : word) : outcome bool :=
  obind (colour_gap c v (colour w)) (fun d => if d <=? fst ths then obind (texture_gap e (tex w)) (fun h => Done (h <=? snd ths)) else Done false).
Definition heavier (now off : Z) (a b : word) : bool := Qltb (weight now off b) (weight now off a).
Definition again (now n : Z) (w : word) : word := {| colour := colour w; tex := tex w; first := first w; latest := now; occ := occ w + n |}.
(* lines 133-170, 286-320: one sample of pixel [i], the words of which start at place [b] *)
Definition resample (c : config) (rnd : nat -> Z) (sc : scene) (st : state) (base : Z) (force : bool) (ths : Z * Z) (i b : Z) (k : nat) (s : store word * nat) : outcome (store word * nat) :=
  let now := frame (lev st) in
  let sp := place (size sc) (getSamplePosition_7x7_std2 (rnd (snd s)) (point (size sc) i) 2 (size sc)) in
  obind (if force then Done false else access (get (area sc) (dil st) sp)) (fun fg : bool =>
  if fg then Done (fst s, S (snd s))
  else
  obind (access (SubsenseFrame.fetch (sub c) (size sc) (seen st) sp)) (fun v =>
  obind (access (SubsenseFrame.fetch (sub c) (size sc) (ldesc st) sp)) (fun e =>
  obind (insert (fst s) (alike c ths v e) (locals c) b {| colour := v; tex := e; first := now; latest := now; occ := base |}) (fun r =>
  let t := fst (fst r) in
  obind (if snd (fst r) : bool then obind (word_at (snd r) t) (fun w => put (snd r) t (again now 1 w)) else Done (snd r)) (fun m =>
  obind (climb m (heavier now (woff (lev st))) (Z.to_nat (t - b)) b) (fun m' => Done (m', S (snd s)))))))).
(* lines 120-126, 275-281; the product is rounded to single precision in the code *)
Definition fade (frac : Q) (b : Z) (k : nat) (m : store word) : outcome (store word) :=
  let s := b + Z.of_nat k in
  obind (peek m s) (fun o =>
  match o with
  | None => Done m
  | Some w => put m s {| colour := colour w; tex := tex w; first := first w; latest := latest w; occ := occ w - Qfloor (frac * inject_Z (occ w)) |}
  end).
(* lines 173-189, 322-338; k from 1 *)
Definition invent (c : config) (rnd : nat -> Z) (now : Z) (ths : Z * Z) (b : Z) (k : nat) (s : store word * nat) : outcome (store word * nat) :=
  let n := Z.of_nat (locals c) in
  let t := b + Z.of_nat k in
  obind (pointer (fst s) t) (fun o =>
  match o with
  | Some _ => Done s
  | None =>
    obind (remainder (rnd (snd s)) (Z.of_nat k)) (fun which =>
    obind (word_at (fst s) (b + which)) (fun r =>
    let u := if ch c =? 1 then fst ths else fst ths / 3 in
    obind (remainder (rnd (S (snd s))) (u + 1)) (fun e =>
    let d := e - u / 2 in
    obind (create (fst s) t {| colour := map (fun x => sat_uchar (x + d)) (colour r); tex := tex r; first := now; latest := now;
                               occ := Z.max (Qfloor (inject_Z (occ r) * (inject_Z (n - Z.of_nat k) / inject_Z n))) 1 |}) (fun m => Done (m, S (S (snd s)))))))
  end).
(* lines 111-190, 265-339: the words of pixel [i], the [j]th of the region *)
Definition refresh_pixel (c : config) (rnd : nat -> Z) (sc : scene) (st : state) (base : Z) (frac : Q) (force : bool) (ji : Z * Z) (s : store word * nat) : outcome (store word * nat) :=
  let b := fst ji * Z.of_nat (locals c) in
  let i := snd ji in
  obind (if force then Done false else access (get (area sc) (dil st) i)) (fun fg : bool =>
  if fg then Done s
  else
  obind (thresholds c (px st i)) (fun ths =>
  obind (if Qltb 0 frac then each (fade frac b) (seq 0 (locals c)) (fst s) else Done (fst s)) (fun m =>
  obind (each (resample c rnd sc st base force ths i b) (seq 0 98) (m, snd s)) (fun s1 =>
  each (invent c rnd (frame (lev st)) ths b) (seq 1 (locals c - 1)) s1)))).
(* pixels with their places in the region *)
Definition numbered (sc : scene) : list (Z * Z) := combine (zrange 0 (Z.of_nat (length (pxs sc)))) (pxs sc).

(* lines 215-217, 370-372, and 746-747, 1061-1062 (in the other order) *)
Definition akin (c : config) (ths : Z * Z) (v : list Z) (bits : Z) (g : gword) : outcome bool :=
  obind (colour_gap c (gcol g) v) (fun d => if d <=? fst ths then obind (access (L1dist 8 bits (gbits g))) (fun h => Done (h <=? snd ths / 4)) else Done false).
Definition zero_map : option (Z -> Q) := Some (fun _ => 0%Q).
(* a value of the map of a global word *)
Definition map_at (sc : scene) (g : gword) (i : Z) : outcome Q :=
  match gmap g with None => Fault Empty | Some m => access (get (map_size sc) m (map_place sc i)) end.
(* lines 233-237, 389-393, 761-765, 1078-1082 *)
Definition credit (sc : scene) (g : gword) (i : Z) (x : Q) : outcome gword :=
  obind (map_at sc g i) (fun y =>
  match gmap g with
  | None => Fault Empty
  | Some m =>
    if Qltb y x then Done {| gcol := gcol g; gbits := gbits g; gweight := Qred (gweight g + x); gmap := Some (SubsenseFrame.set1 m (map_place sc i) (Qred (y + x))) |}
    else Done g
  end).
Definition weightier (a b : gword) : bool := Qltb (gweight b) (gweight a).
(* lines 196-243, 345-398: one pixel of one pass *)
Definition regather (c : config) (sc : scene) (st : state) (m : store word) (force : bool) (incr : Z) (ji : Z * Z) (g : store gword) : outcome (store gword) :=
  let i := snd ji in
  if negb (i mod incr =? 0) then Done g
  else
  obind (if force then Done false else access (get (area sc) (dil st) i)) (fun fg : bool =>
  if fg then Done g
  else
  obind (thresholds c (px st i)) (fun ths =>
  obind (word_at m (fst ji * Z.of_nat (locals c))) (fun w =>
  obind (count_bits (tex w)) (fun bits =>
  obind (insert g (akin c ths (colour w) bits) (globals c) 0 {| gcol := colour w; gbits := bits; gweight := 0; gmap := zero_map |}) (fun r =>
  let t := fst (fst r) in
  obind (word_at (snd r) t) (fun x =>
  obind (credit sc x i (weight (frame (lev st)) (woff (lev st)) w)) (fun x' =>
  obind (put (snd r) t x') (fun g' => climb g' weightier (Z.to_nat t) 0)))))))).
(* lines 246-257, 400-413 *)
Definition complete (c : config) (k : nat) (g : store gword) : outcome (store gword) :=
  obind (pointer g (Z.of_nat k)) (fun o =>
  match o with
  | Some _ => Done g
  | None => create g (Z.of_nat k) {| gcol := map (fun _ => 0) (zrange 0 (ch c)); gbits := 0; gweight := 0; gmap := zero_map |}
  end).
(* lines 416-429, 1320-1333: one pass over the places of the global words for a pixel *)
Fixpoint sift (sc : scene) (g : store gword) (i : Z) (top : Z) (x : Q) (l : list Z) : outcome (list Z) :=
  match l with
  | [] => Done [top]
  | a :: l' =>
    obind (deref g (block g, a)) (fun w => obind (map_at sc w i) (fun y =>
    if Qltb x y then obind (sift sc g i top x l') (fun r => Done (a :: r)) else obind (sift sc g i a y l') (fun r => Done (top :: r))))
  end.
Definition sort_pixel (sc : scene) (g : store gword) (i : Z) (o : Z -> list Z) : outcome (Z -> list Z) :=
  match o i with
  | [] => Fault Outside
  | a :: l => obind (deref g (block g, a)) (fun w => obind (map_at sc w i) (fun y => obind (sift sc g i a y l) (fun r => Done (SubsenseFrame.set1 o i r))))
  end.
(* lines 106-430 *)
Definition refreshModel (c : config) (rnd : nat -> Z) (sc : scene) (base : Z) (frac : Q) (force : bool) (st : state) : outcome state :=
  if Qltb frac 0 || Qltb 1 frac then Refused
  else
  obind (each (refresh_pixel c rnd sc st base frac force) (numbered sc) (dict st, used st)) (fun s =>
  let incr := Z.max (area sc / Z.of_nat (globals c)) 1 in
  obind (each (regather c sc st (fst s) force incr) (numbered sc) (glob st)) (fun g1 =>
  obind (each (regather c sc st (fst s) force (Z.max (incr / 3) 1)) (numbered sc) g1) (fun g2 =>
  obind (each (complete c) (seq 0 (globals c)) g2) (fun g3 =>
  obind (each (sort_pixel sc g3) (pxs sc) (order st)) (fun o =>
  Done {| dict := fst s; glob := g3; order := o; illum := illum st; used := snd s; seen := seen st; ldesc := ldesc st; px := px st; dil := dil st; lev := lev st |}))))).

(* ---- initialize, lines 432-557 *)
Definition start : Subsense.pixel :=
  {| Subsense.rate := 1; Subsense.radius := 2; Subsense.modulator := 10; Subsense.min_lt := 0; Subsense.min_st := 0; Subsense.raw_lt := 0; Subsense.raw_st := 0;
     Subsense.final_lt := 0; Subsense.final_st := 0; Subsense.unstable := false; Subsense.blinks := false; Subsense.last_raw := false; Subsense.last_blink := false;
     Subsense.last_final := false; Subsense.clear := false |}.
(* what an object has before: the dictionaries, m_bAutoModelResetEnabled, the random numbers used; a new object *)
Definition unused : store word * store gword * bool * nat := (nothing no_word, nothing no_gword, true, O).
Definition initialize (c : config) (rnd : nat -> Z) (old : store word * store gword * bool * nat) (current given : option mask) (sz : Z * Z) (img : Z -> Z) : outcome (scene * state) :=
  match initialize_roi 2 current given (snd sz) (fst sz) with
  | None => Refused
  | Some r =>
    let t := tables_of r (ch c) img in
    let sc := {| size := sz; roi := data r; pxs := RoiTable.lut t |} in
    obind (access (SubsenseFrame.first_desc (sub c) sz img (RoiTable.lut t) (fun _ => 0))) (fun ld =>
    if (fst sz / 8 =? 0) || (snd sz / 8 =? 0) then Thrown
    else
    obind (refreshModel c rnd sc 1 0 false
      {| dict := renew (blank c) (Z.of_nat (length (RoiTable.lut t)) * Z.of_nat (locals c)) (fst (fst (fst old)));
         glob := renew (gblank c) (Z.of_nat (globals c)) (snd (fst (fst old))); order := fun _ => zrange 0 (Z.of_nat (globals c));
         illum := fun _ => 0; used := snd old; seen := fun i => nth (Z.to_nat i) (RoiTable.last t) 0; ldesc := ld; px := fun _ => start; dil := fun _ => false;
         lev := {| frame := 0; woff := 1000; moving := false; auto := snd (fst old); since := 0; cool := 0; lut := SubsenseFrame.first_lut (sub c); nz := 0 |} |}) (fun st =>
    Done (sc, st)))
  end.

(* ---- apply *)
(* what is known of a pixel at the beginning: colour, surroundings, descriptor, its bits, flat or not, increment of occurrences, update rate, thresholds,
   weight to reach, border of the region, and whether the frame is one of the first 500 *)
Record glance := { cur : list Z; around : list (list Z); desc : list Z; bits : Z; flat : bool; incr : Z; rate : Z; ths : Z * Z; goal : Q; border : bool; boot : bool }.
(* lines 674-679, 991-996; [ov] is the learning rate given, rounded up: 0 if none, 2^64-1 if infinite *)
Definition rate_of (ov : Z) (flat : bool) (t : Q) : Z := if 0 <? ov then ov else if flat then Qceiling (t + 1) / 2 else Qceiling t.
(* lines 619-682, 935-999 *)
Definition look (c : config) (ov : Z) (sc : scene) (img : Z -> Z) (st : state) (b i : Z) : outcome glance :=
  let l := lev st in
  let p := px st i in
  obind (access (SubsenseFrame.describe (sub c) (lut l) (size sc) img i)) (fun s =>
  obind (word_at (dict st) b) (fun w =>
  obind (access (get (area sc) (roi sc) i)) (fun r =>
  obind (count_bits (snd s)) (fun n =>
  obind (thresholds c p) (fun t =>
  let bt := frame l <=? 500 in
  let f := n <? (if ch c =? 1 then 2 else 4) in
  Done {| cur := fst (fst s); around := snd (fst s); desc := snd s; bits := n; flat := f; incr := (1 + cool l) * (if f || bt then 2 else 1);
          rate := rate_of ov f (Subsense.rate p); ths := t; goal := (weight (frame l) (woff l) w / (Subsense.radius p * 2))%Q; border := r <? 255; boot := bt |}))))).

(* lines 689-692, 1006-1013: colour distance, its first part, descriptor distance to the current one, and mean of the two *)
Definition gaps (c : config) (lut : Z -> Z) (s : glance) (w : word) : outcome (Z * Z * Z * Z) :=
  obind (plain_gap (cur s) (colour w)) (fun l =>
  obind (colour_gap c (cur s) (colour w)) (fun d =>
  obind (texture_gap (desc s) (tex w)) (fun intra =>
  obind (access (all (map (fun x => texture (SubsenseFrame.low (sub c) lut) (fst x) (snd x)) (combine (around s) (colour w))))) (fun e =>
  obind (texture_gap e (tex w)) (fun inter => Done (d, l, intra, (intra + inter) / 2)))))).
(* lines 703-705, 1026-1028 *)
Definition lit (sc : scene) (i : Z) (m : Z -> Z) : outcome (Z -> Z) :=
  obind (access (get (area sc) (roi sc) (i - 1))) (fun a =>
  obind (access (get (area sc) (roi sc) (i + 1))) (fun b =>
  Done (SubsenseFrame.set1 (SubsenseFrame.set1 (SubsenseFrame.set1 m (i - 1) (Z.land 1 a)) (i + 1) (Z.land 1 b)) i 2))).
(* what the scan of the words keeps: words, m_oIllumUpdtRegionMask, random numbers; weight found, weight of the previous word (None: FLT_MAX), least distances *)
Record sweep := { sdict : store word; sillum : Z -> Z; sused : nat; found : Q; prev : option Q; lowc : Z; lowd : Z }.
(* lines 688-718, 1005-1041: a word is compared with the pixel: the word, m_oIllumUpdtRegionMask and random numbers; distances if it matches *)
Definition compare_word (c : config) (rnd : nat -> Z) (sc : scene) (st : state) (s : glance) (i : Z) (ill : Z -> Z) (n : nat) (w : word) : outcome (word * (Z -> Z) * nat * option (Z * Z)) :=
  let l := lev st in
  let p := px st i in
  obind (gaps c (lut l) s w) (fun g =>
  let '(d, l1, intra, dd) := g in
  let eligible := (negb (Subsense.unstable p) || flat s || border s) && (d <=? fst (ths s)) && (fst (ths s) / 2 <=? l1) && (intra <=? snd (ths s) / 2) in
  obind (if eligible then lottery (rnd n) (if ill i =? 0 then rate s else rate s / 2 + 1) else Done false) (fun won : bool =>
  let n1 := if eligible then S n else n in
  obind (if won then lit sc i ill else Done ill) (fun ill1 =>
  let w1 := if won then {| colour := cur s; tex := desc s; first := first w; latest := latest w; occ := occ w |} else w in
  if (dd <=? snd (ths s)) && (d <=? fst (ths s))
  then
    let more := (negb (Subsense.last_final p) || moving l) && Qltb (weight (frame l) (woff l) w) 1 in
    Done (again (frame l) (if more then incr s else 0) w1, ill1, n1, Some (d, dd))
  else Done (w1, ill1, n1, None)))).
(* lines 684-745, 1001-1057: the word of place [b + k]; both loops *)
Definition scan_word (c : config) (rnd : nat -> Z) (sc : scene) (st : state) (s : glance) (i b : Z) (k : nat) (z : sweep) : outcome sweep :=
  let t := b + Z.of_nat k in
  let l := lev st in
  obind (word_at (sdict z) t) (fun w =>
  let x := weight (frame l) (woff l) w in
  obind (if Qltb (found z) (goal s)
         then obind (compare_word c rnd sc st s i (sillum z) (sused z) w) (fun r =>
              let '(w1, ill, n, hit) := r in
              obind (put (sdict z) t w1) (fun m =>
              Done (match hit with
                    | Some (d, dd) => {| sdict := m; sillum := ill; sused := n; found := Qred (found z + x); prev := prev z; lowc := Z.min (lowc z) d; lowd := Z.min (lowd z) dd |}
                    | None => {| sdict := m; sillum := ill; sused := n; found := found z; prev := prev z; lowc := lowc z; lowd := lowd z |}
                    end)))
         else Done z) (fun z1 =>
  if match prev z1 with None => false | Some y => Qltb y x end
  then obind (swap (sdict z1) t) (fun m => Done {| sdict := m; sillum := sillum z1; sused := sused z1; found := found z1; prev := prev z1; lowc := lowc z1; lowd := lowd z1 |})
  else Done {| sdict := sdict z1; sillum := sillum z1; sused := sused z1; found := found z1; prev := Some x; lowc := lowc z1; lowd := lowd z1 |})).
Definition scan (c : config) (rnd : nat -> Z) (sc : scene) (st : state) (s : glance) (i b : Z) : outcome sweep :=
  each (scan_word c rnd sc st s i b) (seq 0 (locals c))
    {| sdict := dict st; sillum := illum st; sused := used st; found := 0; prev := None; lowc := 255 * ch c; lowd := 16 * ch c |}.

(* lines 741-749, 1056-1064, 781-789, 1099-1107: the first global word that fits, in the order of the pixel *)
Fixpoint search (c : config) (g : store gword) (ths : Z * Z) (v : list Z) (bits : Z) (l : list Z) : outcome (option Z) :=
  match l with
  | [] => Done None
  | a :: l' => obind (deref g (block g, a)) (fun w => obind (akin c ths v bits w) (fun b : bool => if b then Done (Some a) else search c g ths v bits l'))
  end.
(* lines 739-767, 1054-1084 *)
Definition teach (c : config) (rnd : nat -> Z) (sc : scene) (st : state) (s : glance) (i : Z) (x : Q) (n : nat) : outcome (store gword * nat) :=
  let g := glob st in
  obind (lottery (rnd n) (rate s)) (fun b : bool =>
  if b then
    obind (search c g (ths s) (cur s) (bits s) (order st i)) (fun o =>
    match o with
    | Some a => obind (deref g (block g, a)) (fun w => obind (credit sc w i x) (fun w' => obind (assign g (block g, a) w') (fun g' => Done (g', S n))))
    | None =>
      obind (lottery (rnd (S n)) (Subsense.u64 (rate s * 2))) (fun b2 : bool =>
      if b2 then
        obind (word_at g (Z.of_nat (globals c) - 1)) (fun w =>
        obind (match gmap w with None => Fault Empty | Some _ => Done {| gcol := cur s; gbits := bits s; gweight := 0; gmap := zero_map |} end) (fun w1 =>
        obind (credit sc w1 i x) (fun w' => obind (put g (Z.of_nat (globals c) - 1) w') (fun g' => Done (g', S (S n))))))
      else Done (g, S (S n)))
    end)
  else Done (g, S n)).
(* lines 779-811, 1097-1128: whether the pixel is foreground after all *)
Definition appeal (c : config) (rnd : nat -> Z) (sc : scene) (st : state) (s : glance) (i : Z) (x : Q) (n : nat) : outcome (bool * nat) :=
  let g := glob st in
  obind (if flat s then Done true else lottery (rnd n) (rate s)) (fun b : bool =>
  let n1 := if flat s then n else S n in
  if b then
    obind (search c g (ths s) (cur s) (bits s) (order st i)) (fun o =>
    match o with
    | None => Done (true, n1)
    | Some a => obind (deref g (block g, a)) (fun w => obind (map_at sc w i) (fun y => Done (Qltb (x + y / (if flat s then 2 else 4)) (goal s), n1)%Q))
    end)
  else Done (true, n1)).
(* lines 813-823, 845-..., the last word of a dictionary becomes the pixel *)
Definition replace (c : config) (now : Z) (s : glance) (b : Z) (m : store word) : outcome (store word) :=
  let t := b + Z.of_nat (locals c) - 1 in
  put m t {| colour := cur s; tex := desc s; first := now; latest := now; occ := incr s |}.

(* lines 848-890, 1170-1229: one word of the neighbour; the words, random numbers and the weight found. In grey images the word is a copy, and what is
   changed is lost *)
Definition neighbour_word (c : config) (rnd : nat -> Z) (sc : scene) (st : state) (s : glance) (fg : Z -> bool) (q bq : Z) (k : nat) (z : store word * nat * Q) : outcome (store word * nat * Q) :=
  let '(m, n, x) := z in
  let l := lev st in
  let t := bq + Z.of_nat k in
  if negb (Qltb x (goal s)) then Done z
  else
  obind (word_at m t) (fun w =>
  obind (colour_gap c (cur s) (colour w)) (fun d =>
  obind (texture_gap (desc s) (tex w)) (fun intra =>
  obind (count_bits (tex w)) (fun nb =>
  let y := weight (frame l) (woff l) w in
  let more := if Qltb y 1 then (if nb <? (if ch c =? 1 then 2 else 4) then incr s * 2 else incr s) else 0 in
  let keep := fun w' => if ch c =? 1 then Done m else put m t w' in
  let gain := fun n' w' => obind (keep (again (frame l) more w')) (fun m' => Done (m', n', Qred (x + y))) in
  if (d <=? fst (ths s)) && (intra <=? snd (ths s)) then gain n w
  else
  obind (access (get (area sc) fg q)) (fun fgq : bool =>
  if fgq || negb (flat s) then Done z
  else
  obind (if boot s then Done true else lottery (rnd n) (rate s)) (fun won : bool =>
  let n1 := if boot s then n else S n in
  if negb won then Done (m, n1, x)
  else
  obind (access (SubsenseFrame.fetch (sub c) (size sc) (ldesc st) q)) (fun e =>
  obind (texture_gap (desc s) e) (fun h =>
  if (d <=? fst (ths s)) && (h <=? snd (ths s) / 2) then gain n1 {| colour := colour w; tex := desc s; first := first w; latest := latest w; occ := occ w |}
  else if ch c =? 1 then Done (m, n1, x)
  else
  obind (count_bits e) (fun ne =>
  obind (angle_gap (cur s) (colour w)) (fun a =>
  if (ne <? 4) && (h + intra <=? snd (ths s)) && (a <=? fst (ths s) / 4)
  then gain n1 {| colour := cur s; tex := tex w; first := first w; latest := latest w; occ := occ w |}
  else Done (m, n1, x))))))))))).
(* lines 833-903, 1150-1246; [fg] is the mask so far *)
Definition neighbour (c : config) (rnd : nat -> Z) (sc : scene) (st : state) (s : glance) (fg : Z -> bool) (i : Z) (m : store word) (n : nat) : outcome (store word * nat) :=
  let l := lev st in
  obind (if fg i then Done false else lottery (rnd n) (rate s)) (fun won : bool =>
  let n1 := if fg i then n else S n in
  if won || border s || moving l then
    obind (access ((if flat s || border s || moving l then getNeighborPosition_5x5 else getNeighborPosition_3x3) (rnd n1) (point (size sc) i) 2 (size sc))) (fun p =>
    let q := place (size sc) p in
    obind (access (get (area sc) (roi sc) q)) (fun r =>
    if r =? 0 then Done (m, S n1)
    else
    let bq := place_in q (pxs sc) * Z.of_nat (locals c) in
    obind (each (neighbour_word c rnd sc st s fg q bq) (seq 0 (locals c)) (m, S n1, 0%Q)) (fun z =>
    let '(m2, n2, x) := z in
    obind (if Qltb x (1 / inject_Z (woff l)) then replace c (frame l) s bq m2 else Done m2) (fun m3 => Done (m3, n2)))))
  else Done (m, n1)).

(* lines 907-921, 1231-1245: the feedback; [x] is the normalized distance, [bg] the raw decision of the words, [fg] that of the pixel *)
Definition next_rate (p : Subsense.pixel) (fg : bool) (lo hi : Q) : Q :=
  if Subsense.last_final p || (Qltb lo (1 # 10) && fg)
  then match Subsense.plus_ext (Subsense.rate p) (Subsense.over (1 # 2) (hi * Subsense.modulator p)) with Subsense.Fin q => Qmin q 256 | Subsense.PosInf => 256 | Subsense.NegInf => 0 end
  else match Subsense.minus_ext (Subsense.rate p) (Subsense.over ((1 # 4) * Subsense.modulator p) hi) with Subsense.Fin q => Qmax q 1 | Subsense.PosInf => 256 | Subsense.NegInf => 1 end.
Definition next_modulator (p : Subsense.pixel) (s : glance) (hi : Q) : Q :=
  if Qltb (1 # 10) hi && Subsense.blinks p then (Subsense.modulator p + (if boot s then 2 else 1))%Q
  else Qmax (Subsense.modulator p - (1 # 10) * (if boot s || flat s then 2 else if Subsense.last_final p then 1 # 2 else 1)) (1 # 10).
Definition feedback (al as_ : Q) (s : glance) (bg fg : bool) (x : Q) (p : Subsense.pixel) : Subsense.pixel :=
  let mlt := Subsense.roll (Subsense.min_lt p) al x in
  let mst := Subsense.roll (Subsense.min_st p) as_ x in
  let seg := if bg then 0%Q else 1%Q in
  let rlt := Subsense.roll (Subsense.raw_lt p) al seg in
  let rst := Subsense.roll (Subsense.raw_st p) as_ seg in
  let lo := Qmin mlt mst in
  let hi := Qmax mlt mst in
  let v := Qred (next_modulator p s hi) in
  {| Subsense.rate := Qred (next_rate p fg lo hi); Subsense.radius := Qred (Subsense.next_radius p v lo); Subsense.modulator := v;
     Subsense.min_lt := mlt; Subsense.min_st := mst; Subsense.raw_lt := rlt; Subsense.raw_st := rst; Subsense.final_lt := Subsense.final_lt p; Subsense.final_st := Subsense.final_st p;
     Subsense.unstable := Qltb 3 (Subsense.radius p) || Qltb (1 # 10) (rlt - Subsense.final_lt p) || Qltb (1 # 10) (rst - Subsense.final_st p);
     Subsense.blinks := Subsense.blinks p; Subsense.last_raw := Subsense.last_raw p; Subsense.last_blink := Subsense.last_blink p;
     Subsense.last_final := Subsense.last_final p; Subsense.clear := Subsense.clear p |}.
(* lines 729-735, 771-774, 1044-1050, 1089-1092 *)
Definition normalized (c : config) (s : glance) (bg : bool) (z : sweep) : Q :=
  let d := Qmax (inject_Z (lowc z) / inject_Z (255 * ch c)) (inject_Z (lowd z) / inject_Z (16 * ch c)) in
  if bg then d else Qmax d ((goal s - found z) / goal s).

(* lines 611-925, 927-1290: pixel [i], the [j]th of the region; the mask so far and whether pixels have texture *)
Definition apply_pixel (c : config) (rnd : nat -> Z) (ov : Z) (sc : scene) (img : Z -> Z) (al as_ : Q) (ji : Z * Z) (r : list (Z * (bool * bool)) * (Z -> bool) * state) : outcome (list (Z * (bool * bool)) * (Z -> bool) * state) :=
  let '(out, fg0, st) := r in
  let b := fst ji * Z.of_nat (locals c) in
  let i := snd ji in
  let l := lev st in
  obind (look c ov sc img st b i) (fun s =>
  obind (scan c rnd sc st s i b) (fun z =>
  let bg := Qle_bool (goal s) (found z) || border s in
  obind (if bg then obind (teach c rnd sc st s i (found z) (sused z)) (fun g => Done (fst g, snd g, false, sdict z))
         else obind (appeal c rnd sc st s i (found z) (sused z)) (fun a =>
              obind (if Qltb (found z) (1 / inject_Z (woff l)) then replace c (frame l) s b (sdict z) else Done (sdict z)) (fun m =>
              Done (glob st, snd a, fst a, m)))) (fun d =>
  let '(g1, n1, fgi, m1) := d in
  let fg1 := SubsenseFrame.set1 fg0 i fgi in
  obind (neighbour c rnd sc st s fg1 i m1 n1) (fun mn =>
  let ill := sillum z i in
  Done (out ++ [(i, (fgi, negb (flat s)))], fg1,
    {| dict := fst mn; glob := g1; order := order st; illum := SubsenseFrame.set1 (sillum z) i (if ill =? 0 then 0 else ill - 1); used := snd mn;
       seen := SubsenseFrame.store1 (seen st) (i * ch c) (cur s); ldesc := SubsenseFrame.store1 (ldesc st) (i * ch c) (desc s);
       px := SubsenseFrame.set1 (px st) i (feedback al as_ s bg fgi (normalized c s bg z) (px st i)); dil := dil st; lev := l |}))))).

(* ---- lines 1292-1319: the global words at the end of a frame *)
(* line 1296: nearest neighbour *)
Definition downscaled (sc : scene) (clear : Z -> bool) (a : Z) : bool :=
  let w := fst (size sc) / 2 in
  let h := snd (size sc) / 2 in
  clear (place (size sc) (Z.min (a mod w * fst (size sc) / w) (fst (size sc) - 1), Z.min (a / w * snd (size sc) / h) (snd (size sc) - 1))).
(* line 1309: mean of the 3x3 square, borders repeated *)
Definition blurred (w h : Z) (m : Z -> Q) (a : Z) : Q :=
  let x := a mod w in
  let y := a / w in
  Qred (fold_left (fun t d => t + m (Z.max 0 (Z.min (h - 1) (y + fst d)) * w + Z.max 0 (Z.min (w - 1) (x + snd d)))%Z) (grid (-1) 3 (-1) 3) 0 / 9)%Q.
Definition weaken (sc : scene) (clear : Z -> bool) (m : Z -> Q) : Z -> Q :=
  blurred (fst (size sc) / 2) (snd (size sc) / 2) (fun a => if downscaled sc clear a then (9 # 10) * m a else m a)%Q.
Definition map_sum (sc : scene) (m : Z -> Q) : Q := fold_left (fun x a => Qred (x + m a)%Q) (zrange 0 (map_size sc)) 0%Q.
Definition age (sc : scene) (recalc update : bool) (clear : Z -> bool) (w : gword) : outcome gword :=
  obind (if recalc && Qltb 0 (gweight w)
         then match gmap w with
              | None => Fault Empty
              | Some m => let x := map_sum sc m in
                  Done {| gcol := gcol w; gbits := gbits w; gweight := if Qltb x 1 then 0%Q else x; gmap := if Qltb x 1 then zero_map else Some m |}
              end
         else Done w) (fun w1 =>
  if update && Qltb 0 (gweight w1)
  then match gmap w1 with
       | None => Fault Empty
       | Some m => Done {| gcol := gcol w1; gbits := gbits w1; gweight := Qred ((9 # 10) * gweight w1); gmap := Some (weaken sc clear m) |}
       end
  else Done w1).
Definition age_word (sc : scene) (recalc update : bool) (clear : Z -> bool) (k : nat) (g : store gword) : outcome (store gword) :=
  let t := Z.of_nat k in
  obind (word_at g t) (fun w =>
  obind (age sc recalc update clear w) (fun w1 =>
  obind (put g t w1) (fun g1 =>
  if Nat.eqb k 0 then Done g1
  else obind (word_at g1 (t - 1)) (fun w0 => if weightier w1 w0 then swap g1 t else Done g1)))).

(* ---- lines 1463-1476: the table of texture thresholds *)
Definition least (c : config) (t : Z) : Z := sat_uchar (half_even ((inject_Z (offset c) + inject_Z t * rel c) / 4)%Q).
Definition adapt (c : config) (now before : Q) (f : Z -> Z) : Z -> Z :=
  if Qltb now (1 # 10) && Qltb before (1 # 10) then fun t => if least c t <? f t then SubsenseFrame.wrap8 (f t - 1) else f t
  else if Qltb (1 # 2) now && Qltb (1 # 2) before then fun t => if f t <? SubsenseFrame.most (sub c) then SubsenseFrame.wrap8 (f t + 1) else f t
  else f.

(* ---- lines 1477-1516: the frame-level component *)
Definition with_lev (l : level) (st : state) : state :=
  {| dict := dict st; glob := glob st; order := order st; illum := illum st; used := used st; seen := seen st; ldesc := ldesc st; px := px st; dil := dil st; lev := l |}.
(* lines 1484-1502: moving camera; [a] and [b] are the ratios of lines 1490 and 1491 *)
Definition camera (c : config) (rnd : nat -> Z) (sc : scene) (a b : Q) (st : state) : outcome state :=
  let l := lev st in
  let set := fun o m => {| frame := frame l; woff := o; moving := m; auto := auto l; since := since l; cool := cool l; lut := lut l; nz := nz l |} in
  if negb (frame l mod 500 =? 0) then Done st
  else if moving l && Qltb a (inject_Z (45 / 4)) && Qltb b (inject_Z (45 / 10 / 4)) then refreshModel c rnd sc 1 1 true (with_lev (set 1000 false) st)
  else if (frame l <=? 500) && negb (moving l) && (Qle_bool (inject_Z 45) a || Qle_bool (inject_Z (45 / 10)) b) then refreshModel c rnd sc 1 1 true (with_lev (set 5 true) st)
  else Done st.
(* lines 1503-1513; [r] is the ratio of line 1481, [n] the samples of short-term averages *)
Definition reset (c : config) (rnd : nat -> Z) (sc : scene) (r : Q) (n : Z) (st : state) : outcome state :=
  let l := lev st in
  let set := fun au si co => {| frame := frame l; woff := woff l; moving := moving l; auto := au; since := si; cool := co; lut := lut l; nz := nz l |} in
  if 1000 <? since l then Done (with_lev (set false (since l) (cool l)) st)
  else if Qle_bool (inject_Z 45) r && (cool l =? 0)
  then obind (refreshModel c rnd sc (woff l / 8) 0 true (with_lev (set (auto l) 0 (cool l)) st)) (fun s =>
       Done {| dict := dict s; glob := glob s; order := order s; illum := illum s; used := used s; seen := seen s; ldesc := ldesc s;
               px := fun i => SubsenseFrame.with_rate 1 (px s i); dil := dil s; lev := set (auto l) 0 n |})
  else if frame l <=? 500 then Done st
  else Done (with_lev (set (auto l) (since l + 1) (cool l)) st).
Definition frame_level (c : config) (rnd : nat -> Z) (sc : scene) (r a b : Q) (n : Z) (st : state) : outcome state :=
  let l := lev st in
  let au := auto l || Qle_bool (inject_Z 90) r in
  let st0 := with_lev {| frame := frame l; woff := woff l; moving := moving l; auto := au; since := since l; cool := cool l; lut := lut l; nz := nz l |} st in
  obind (if au || moving l then obind (camera c rnd sc a b st0) (reset c rnd sc r n) else Done st0) (fun s =>
  let l1 := lev s in
  Done (with_lev {| frame := frame l1; woff := woff l1; moving := moving l1; auto := auto l1; since := since l1; cool := (if 0 <? cool l1 then cool l1 - 1 else cool l1);
                    lut := lut l1; nz := nz l1 |} s)).

(* apply, lines 559-1520: the raw mask and the new state *)
Definition apply (c : config) (rnd : nat -> Z) (ov : Z) (r a b : Q) (sc : scene) (img : Z -> Z) (st : state) : outcome (list (Z * bool) * state) :=
  let l := lev st in
  let now := frame l + 1 in
  let lt := if now <=? 500 then avgs c / 2 else avgs c in
  match Subsense.factor now lt, Subsense.factor now (lt / 4) with
  | Some al, Some as_ =>
    let l1 := {| frame := now; woff := woff l; moving := moving l; auto := auto l; since := since l; cool := cool l; lut := lut l; nz := nz l |} in
    obind (each (apply_pixel c rnd ov sc img al as_) (numbered sc) ([], fun _ => false, with_lev l1 st)) (fun x =>
    let '(out, _, s) := x in
    let period := if now <=? 500 then 8 else 16 in
    let recalc := now mod (period * 32) =? 0 in
    let update := now mod period =? 0 in
    obind (each (age_word sc recalc update (fun i => Subsense.clear (px st i))) (seq 0 (globals c)) (glob s)) (fun g =>
    obind (if update then each (sort_pixel sc g) (pxs sc) (order s) else Done (order s)) (fun o =>
    let m := SubsenseFrame.raw out in
    let ratio := SubsenseFrame.textured_ratio out in
    let px1 := fun i =>
      let p := px s i in
      let f := existsb (fun x => (fst x =? i) && snd x) m in
      SubsenseFrame.close_pixel al as_ (filtered c m i) (grown c m i) (px st i)
        {| Subsense.rate := Subsense.rate p; Subsense.radius := Subsense.radius p; Subsense.modulator := Subsense.modulator p; Subsense.min_lt := Subsense.min_lt p;
           Subsense.min_st := Subsense.min_st p; Subsense.raw_lt := Subsense.raw_lt p; Subsense.raw_st := Subsense.raw_st p; Subsense.final_lt := Subsense.final_lt p;
           Subsense.final_st := Subsense.final_st p; Subsense.unstable := Subsense.unstable p; Subsense.blinks := Subsense.blinks p; Subsense.last_raw := f;
           Subsense.last_blink := xorb f (Subsense.last_raw p); Subsense.last_final := Subsense.last_final p; Subsense.clear := Subsense.clear p |} in
    obind (frame_level c rnd sc r a b (lt / 4)
      {| dict := dict s; glob := g; order := o; illum := illum s; used := used s; seen := seen s; ldesc := ldesc s; px := px1; dil := grown c m;
         lev := {| frame := now; woff := woff l; moving := moving l; auto := auto l; since := since l; cool := cool l; lut := adapt c ratio (nz l) (lut l); nz := ratio |} |}) (fun s2 =>
    Done (m, s2)))))
  | _, _ => Fault NoFrame
  end.

(* what can be done between initialization and now; a refused call leaves everything as it is *)
Inductive event := Frame (img : Z -> Z) (ov : Z) (r a b : Q) | Refresh (base : Z) (frac : Q) (force : bool).
Definition act (c : config) (rnd : nat -> Z) (sc : scene) (e : event) (st : state) : outcome state :=
  match e with
  | Frame img ov r a b => obind (apply c rnd ov r a b sc img st) (fun x => Done (snd x))
  | Refresh base frac force => refreshModel c rnd sc base frac force st
  end.
Fixpoint play (c : config) (rnd : nat -> Z) (sc : scene) (l : list event) (st : state) : outcome state :=
  match l with
  | [] => Done st
  | e :: l' => match act c rnd sc e st with Done st' => play c rnd sc l' st' | Refused => play c rnd sc l' st | Thrown => Thrown | Fault f => Fault f end
  end.

(* lines 1525-1560: the value of a channel of a pixel of the background image before it is rounded: None is 0/0 *)
Fixpoint words_of (m : store word) (b : Z) (k : nat) : outcome (list word) :=
  match k with O => Done [] | S k' => obind (word_at m b) (fun w => obind (words_of m (b + 1) k') (fun l => Done (w :: l))) end.
Definition mean (now off : Z) (val : word -> Z) (l : list word) : option Q :=
  let t := fold_left (fun x w => Qred (x + weight now off w)%Q) l 0%Q in
  let v := fold_left (fun x w => Qred (x + inject_Z (val w) * weight now off w)%Q) l 0%Q in
  if Qeq_bool t 0 then None else Some (v / t)%Q.
Definition background (c : config) (sc : scene) (st : state) (j k : Z) : outcome (option Q) :=
  obind (words_of (dict st) (j * Z.of_nat (locals c)) (locals c)) (fun l =>
  Done (mean (frame (lev st)) (woff (lev st)) (fun w => nth (Z.to_nat k) (colour w) 0) l)).
(* lines 1562-1593 *)
Definition background_descriptor (c : config) (sc : scene) (st : state) (j k : Z) : outcome (option Q) :=
  obind (words_of (dict st) (j * Z.of_nat (locals c)) (locals c)) (fun l =>
  Done (mean (frame (lev st)) (woff (lev st)) (fun w => nth (Z.to_nat k) (tex w) 0) l)).
