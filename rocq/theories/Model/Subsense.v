(* The feedback loop of one pixel of the SuBSENSE background subtractor, modules/video/src/BackgroundSubtractorSuBSENSE.cpp, and its
   frame-level component. Floats are exact rationals, kept in lowest terms; a division by zero yields an infinity. The contents of the
   samples are not modelled: a frame gives the distances of the pixel to its samples, whatever they are. Neither are the morphological
   operations on the segmentation (lines 541-553): a frame gives their result at the pixel. The frame counter does not wrap around. *)
From Coq Require Import ZArith QArith Qround Qminmax Qabs List Bool.
From Verif Require Import Model.Pbas.
Import ListNotations.
Open Scope Q_scope.

(* lines 29-44 *)
Definition FEEDBACK_R_VAR := 1 # 100. Definition FEEDBACK_V_INCR := 1. Definition FEEDBACK_V_DECR := 1 # 10.
Definition FEEDBACK_T_DECR := 1 # 4. Definition FEEDBACK_T_INCR := 1 # 2. Definition FEEDBACK_T_LOWER := 2%Z. Definition FEEDBACK_T_UPPER := 256%Z.
Definition UNSTABLE_REG_RATIO_MIN := 1 # 10. Definition UNSTABLE_REG_RDIST_MIN := 3.

(* what can go wrong: a shift of a 64-bit number by 64 or more (lines 223, 359), of a 32-bit number by 32 or more (lines 602-603),
   or an average over no frame (lines 198-199) *)
Inductive fault := Shift64 | Shift32 | NoFrame.
Inductive outcome (A : Type) := Done (a : A) | Fault (f : fault).
Arguments Done {A}. Arguments Fault {A}.

(* floats with infinities, for lines 304 and 307 *)
Inductive ext := NegInf | Fin (q : Q) | PosInf.
(* the quotient of a positive number by a non-negative one *)
Definition over (a b : Q) : ext := if Qeq_bool b 0 then PosInf else Fin (a / b).
Definition plus_ext (t : Q) (e : ext) : ext := match e with NegInf => NegInf | Fin q => Fin (t + q) | PosInf => PosInf end.
Definition minus_ext (t : Q) (e : ext) : ext := match e with NegInf => PosInf | Fin q => Fin (t - q) | PosInf => NegInf end.
(* lines 308-311 *)
Definition clamp (low up : Q) (e : ext) : Q :=
  match e with NegInf => low | PosInf => up | Fin q => if Qltb q low then low else if Qltb up q then up else q end.

(* constructor parameters (lines 65-82), number of channels and whether m_bLearningRateScalingEnabled (lines 111-128) *)
Record config := { grey : bool; min_color : Z; desc_offset : Z; required : nat; window : Z; scaling : bool }.

(* what apply keeps for a pixel: T, R, v, D_min (LT, ST), raw and final segmentation averages, the unstable region, blink, last masks *)
Record pixel := {
  rate : Q; radius : Q; modulator : Q; min_lt : Q; min_st : Q; raw_lt : Q; raw_st : Q; final_lt : Q; final_st : Q;
  unstable : bool; blinks : bool; last_raw : bool; last_blink : bool; last_final : bool; clear : bool }.
(* the frame-level component *)
Record global := { frame_no : Z; low_cap : Q; up_cap : Q; auto_reset : bool; since_reset : Z; cooldown : Z }.

(* lines 107-164, and BackgroundSubtractionUtils.cpp lines 110-112 *)
Definition start_global (c : config) : global :=
  {| frame_no := 0; low_cap := if scaling c then 2 else 4; up_cap := if scaling c then 256 else 512;
     auto_reset := scaling c; since_reset := 0; cooldown := 0 |}.
Definition start (c : config) : pixel :=
  {| rate := low_cap (start_global c); radius := 1; modulator := 10; min_lt := 0; min_st := 0; raw_lt := 0; raw_st := 0; final_lt := 0; final_st := 0;
     unstable := false; blinks := false; last_raw := false; last_blink := false; last_final := false; clear := false |}.

(* a sample: for each channel the color distance and the descriptor distance *)
Definition sample := list (Z * Z).
Definition u64 (z : Z) : Z := (z mod 2 ^ 64)%Z.

(* lines 222 and 358 before the halving of the former *)
Definition color_threshold (c : config) (p : pixel) : Z :=
  Qfloor (radius p * inject_Z (min_color c) - inject_Z (if unstable p then 0%Z else (min_color c / 5)%Z)).
(* lines 223 and 359 *)
Definition shift_amount (p : pixel) : Z := Qfloor (radius p + (1 # 2)).
Definition desc_threshold (c : config) (p : pixel) : Z :=
  u64 (2 ^ shift_amount p + desc_offset c + (if unstable p then desc_offset c else 0))%Z.

(* lines 230-244: total distance and descriptor distance of a good sample *)
Definition match_grey (cthr dthr : Z) (s : sample) : option (Z * Z) :=
  let '(col, desc) := hd (0, 0)%Z s in
  let sum := Z.min (desc / 4 * (255 / 16) + col) 255 in
  if ((cthr <? col) || (dthr <? desc) || (cthr <? sum))%Z then None else Some (sum, desc).
(* lines 371-391 *)
Fixpoint match_channels (sc : Z) (s : sample) (tsum tdesc : Z) : option (Z * Z) :=
  match s with
  | [] => Some (tsum, tdesc)
  | (col, desc) :: s' =>
    let sum := Z.min (desc / 2 * (255 / 16) + col) 255 in
    if ((sc <? col) || (sc <? sum))%Z then None else match_channels sc s' (tsum + sum)%Z (tdesc + desc)%Z
  end.
Definition match_colour (cthr dthr : Z) (s : sample) : option (Z * Z) :=
  match match_channels (cthr * 3 / 2)%Z s 0 0 with
  | Some (tsum, tdesc) => if ((u64 (dthr * 3) <? tdesc) || (cthr * 3 <? tsum))%Z then None else Some (tsum, tdesc)
  | None => None
  end.
Definition match_sample (c : config) (p : pixel) (s : sample) : option (Z * Z) :=
  if grey c then match_grey (color_threshold c p / 2)%Z (desc_threshold c p) s else match_colour (color_threshold c p) (desc_threshold c p) s.

(* lines 229-253 and 368-397: the number of good samples and the smallest distances among them *)
Fixpoint scan (m : sample -> option (Z * Z)) (req : nat) (l : list sample) (good : nat) (lsum ldesc : Z) : nat * (Z * Z) :=
  match l with
  | [] => (good, (lsum, ldesc))
  | s :: l' =>
    if Nat.ltb good req then
      match m s with
      | Some (sum, desc) => scan m req l' (S good) (Z.min lsum sum) (Z.min ldesc desc)
      | None => scan m req l' good lsum ldesc
      end
    else (good, (lsum, ldesc))
  end.

(* lines 198-199 *)
Definition factor (n w : Z) : option Q := if (Z.min n w =? 0)%Z then None else Some (1 / inject_Z (Z.min n w)).
(* a rolling average *)
Definition roll (m a x : Q) : Q := Qred (m * (1 - a) + x * a).

(* what a frame gives at the pixel: its distances to the samples, the final segmentation and its dilation, and the mean difference of
   the down-sampled averages (line 584) *)
Record input := { samples : list sample; final : bool; dilated : bool; diff_ratio : Q }.

Definition channels (c : config) : Z := if grey c then 1 else 3.
(* lines 258, 273, 400, 415 *)
Definition min_distance (c : config) (good : nat) (lsum ldesc : Z) : Q :=
  let d := (inject_Z lsum / inject_Z (255 * channels c) + inject_Z ldesc / inject_Z (16 * channels c)) / 2 in
  if Nat.ltb good (required c) then Qmin 1 (d + inject_Z (Z.of_nat (required c - good)) / inject_Z (Z.of_nat (required c))) else d.

(* lines 302-311 *)
Definition next_rate (g : global) (p : pixel) (fg : bool) (lo hi : Q) : Q :=
  clamp (low_cap g) (up_cap g)
    (if last_final p || (Qltb lo UNSTABLE_REG_RATIO_MIN && fg) then
       (if Qltb (rate p) (up_cap g) then plus_ext (rate p) (over FEEDBACK_T_INCR (hi * modulator p)) else Fin (rate p))
     else if Qltb (low_cap g) (rate p) then minus_ext (rate p) (over (FEEDBACK_T_DECR * modulator p) hi) else Fin (rate p)).
(* lines 312-318 *)
Definition next_modulator (p : pixel) (unst : bool) (hi : Q) : Q :=
  if Qltb UNSTABLE_REG_RATIO_MIN hi && blinks p then modulator p + FEEDBACK_V_INCR
  else if Qltb FEEDBACK_V_DECR (modulator p) then
    let v := modulator p - (if last_final p then FEEDBACK_V_DECR / 4 else if unst then FEEDBACK_V_DECR / 2 else FEEDBACK_V_DECR) in
    if Qltb v FEEDBACK_V_DECR then FEEDBACK_V_DECR else v
  else modulator p.
(* lines 319-325 *)
Definition next_radius (p : pixel) (v lo : Q) : Q :=
  if Qltb (radius p) ((1 + lo * 2) * (1 + lo * 2)) then radius p + FEEDBACK_R_VAR * (v - FEEDBACK_V_DECR)
  else let r := radius p - FEEDBACK_R_VAR / v in if Qltb r 1 then 1 else r.

(* lines 204-330 (or 334-477) for the pixel, and lines 537-555 at the end of the frame; al and as_ are the factors of lines 198-199 *)
Definition pixel_step (c : config) (g : global) (al as_ : Q) (i : input) (p : pixel) : outcome (bool * pixel) :=
  if (64 <=? shift_amount p)%Z then Fault Shift64 else
  let unst := Qltb UNSTABLE_REG_RDIST_MIN (radius p) || Qltb UNSTABLE_REG_RATIO_MIN (raw_lt p - final_lt p)
              || Qltb UNSTABLE_REG_RATIO_MIN (raw_st p - final_st p) in
  let '(good, (lsum, ldesc)) := scan (match_sample c p) (required c) (samples i) 0 (255 * channels c) (16 * channels c) in
  let fg := Nat.ltb good (required c) in
  let d := min_distance c good lsum ldesc in
  let mlt := roll (min_lt p) al d in
  let mst := roll (min_st p) as_ d in
  let seg := if fg then 1 else 0 in
  let lo := Qmin mlt mst in
  let hi := Qmax mlt mst in
  let t := Qred (next_rate g p fg lo hi) in
  let v := Qred (next_modulator p unst hi) in
  let r := Qred (next_radius p v lo) in
  let blink := xorb fg (last_raw p) in
  let fin := if final i then 1 else 0 in
  Done (fg,
    {| rate := t; radius := r; modulator := v; min_lt := mlt; min_st := mst;
       raw_lt := roll (raw_lt p) al seg; raw_st := roll (raw_st p) as_ seg; final_lt := roll (final_lt p) al fin; final_st := roll (final_st p) as_ fin;
       unstable := unst; blinks := (blink || last_blink p) && clear p && negb (dilated i);
       last_raw := fg; last_blink := blink; last_final := final i; clear := negb (dilated i) |}).

(* lines 601-607: the caps of the next frame; None when the shift is by 32 or more *)
Definition next_caps (c : config) (ratio : Q) : option (Q * Q) :=
  if Qle_bool (inject_Z (min_color c / 2 / 2)) ratio then
    let k := Qfloor (ratio / 2) in
    if (32 <=? k)%Z then None
    else Some (inject_Z (Z.max (Z.shiftr FEEDBACK_T_LOWER k) 1), inject_Z (Z.max (Z.shiftr FEEDBACK_T_UPPER k) 1))
  else Some (inject_Z FEEDBACK_T_LOWER, inject_Z FEEDBACK_T_UPPER).

(* lines 568-612: whether all rates are set to one, and the next state *)
Definition global_step (c : config) (ratio : Q) (g : global) : outcome (bool * global) :=
  if scaling c then
    let over_thr := Qle_bool (inject_Z (min_color c / 2)) ratio in
    let over_twice := Qle_bool (inject_Z (min_color c / 2 * 2)) ratio in
    let reset := auto_reset g && negb (1000 <? since_reset g)%Z && (over_thr && (cooldown g =? 0)%Z) in
    let '(auto, since, cool) :=
      if auto_reset g then
        if (1000 <? since_reset g)%Z then (false, since_reset g, cooldown g)
        else if over_thr && (cooldown g =? 0)%Z then (true, 0%Z, (window c / 4)%Z)
        else (true, since_reset g + 1, cooldown g)%Z
      else if over_twice then (true, 0%Z, cooldown g)
      else (false, since_reset g, cooldown g) in
    match next_caps c ratio with
    | None => Fault Shift32
    | Some (low, up) =>
      Done (reset, {| frame_no := frame_no g; low_cap := low; up_cap := up; auto_reset := auto; since_reset := since;
                      cooldown := (if 0 <? cool then cool - 1 else cool)%Z |})
    end
  else Done (false, g).

(* apply, lines 188-613 *)
Definition step (c : config) (i : input) (s : pixel * global) : outcome (bool * (pixel * global)) :=
  let (p, g) := s in
  let n := (frame_no g + 1)%Z in
  let g1 := {| frame_no := n; low_cap := low_cap g; up_cap := up_cap g; auto_reset := auto_reset g; since_reset := since_reset g; cooldown := cooldown g |} in
  match factor n (window c), factor n (window c / 4) with
  | Some al, Some as_ =>
    match pixel_step c g1 al as_ i p with
    | Fault f => Fault f
    | Done (fg, p1) =>
      match global_step c (diff_ratio i) g1 with
      | Fault f => Fault f
      | Done (reset, g2) =>
        Done (fg, ({| rate := if reset then 1 else rate p1; radius := radius p1; modulator := modulator p1; min_lt := min_lt p1; min_st := min_st p1;
                      raw_lt := raw_lt p1; raw_st := raw_st p1; final_lt := final_lt p1; final_st := final_st p1; unstable := unstable p1;
                      blinks := blinks p1; last_raw := last_raw p1; last_blink := last_blink p1; last_final := last_final p1; clear := clear p1 |}, g2))
      end
    end
  | _, _ => Fault NoFrame
  end.

(* a video *)
Fixpoint play (c : config) (frames : list input) (s : pixel * global) : outcome (pixel * global) :=
  match frames with
  | [] => Done s
  | i :: is =>
    match step c i s with
    | Fault f => Fault f
    | Done (_, s') => play c is s'
    end
  end.

(* lines 569-584, for the down-sampled averages of each pixel: the short-term and the long-term ones of each channel *)
Definition pixel_diff (c : config) (v : list (Q * Q)) : Z :=
  let d := fun sl => Qfloor (Qabs (fst sl - snd sl)) in
  if grey c then (d (hd (0, 0)%Q v) / 2)%Z else fold_left Z.max (map d v) 0%Z.
Definition color_diff_ratio (c : config) (averages : list (list (Q * Q))) : Q :=
  inject_Z (fold_left Z.add (map (pixel_diff c) averages) 0%Z) / inject_Z (Z.of_nat (length averages)).
(* lines 569-571 (cv::accumulateWeighted) *)
Definition accumulate (al as_ x : Q) (sl : Q * Q) : Q * Q := (roll (fst sl) as_ x, roll (snd sl) al x).
Fixpoint accumulate_video (c : config) (n : Z) (xs : list Q) (sl : Q * Q) : Q * Q :=
  match xs with
  | [] => sl
  | x :: xs' =>
    match factor (n + 1) (window c), factor (n + 1) (window c / 4) with
    | Some al, Some as_ => accumulate_video c (n + 1) xs' (accumulate al as_ x sl)
    | _, _ => sl
    end
  end.
