(* The feedback loop of one pixel of the PBAS background subtractors, modules/video/src/BackgroundSubtractorPBAS.cpp, with the compilation
   switches of BackgroundSubtractorPBAS.hpp (BGSPBAS_USE_R2_ACCELERATION is 0). Floats are exact rationals. The contents of the samples are
   not modelled here but in Model/PbasFrame.v: a frame gives the distances of the pixel to its samples, whatever they are. *)
From Coq Require Import ZArith QArith Qround List Bool.
Import ListNotations.
Open Scope Q_scope.

(* BackgroundSubtractorPBAS.hpp lines 59-64 and 74-79 *)
Definition R_SCALE := 5. Definition R_INCR := 105 # 100. Definition R_DECR := 95 # 100. Definition R_LOWER := 60 # 100. Definition R_UPPER := 99.
Definition T_SCALE := 255. Definition T_OFFST := 1. Definition T_DECR := 5 # 100. Definition T_INCR := 1. Definition T_LOWER := 2. Definition T_UPPER := 200.

Definition Qltb (a b : Q) : bool := negb (Qle_bool b a).

(* lines 22-34: constructor parameters *)
Record config := { threshold : Z; samples : nat; required : nat }.
(* m_oDistThresholdFrame, m_oUpdateRateFrame and m_oMeanMinDistFrame at the pixel *)
Record pixel := { radius : Q; rate : Q; mean : Q }.
(* lines 66-75 and 285-294: the frames set up by initialize *)
Definition start (default_rate : Q) : pixel := {| radius := 1; rate := default_rate; mean := 0 |}.

(* lines 149-163 and 373-391: count of good samples and smallest distance among them *)
Fixpoint scan (thr : Q) (req : nat) (l : list Q) (good : nat) (low : Q) : nat * Q :=
  match l with
  | [] => (good, low)
  | d :: l' =>
    if Nat.ltb good req then
      let s := if Qltb 255 d then 255 else d in
      if Qle_bool s thr then scan thr req l' (S good) (if Qltb s low then s else low) else scan thr req l' good low
    else (good, low)
  end.

(* lines 145-219 and 369-447: whether the pixel is foreground, the rate used to update samples (lines 174, 402; without override), the new state. *)
Definition step (c : config) (dists : list Q) (p : pixel) : bool * Z * pixel :=
  let thr := radius p * inject_Z (threshold c) in
  let (good, low) := scan thr (required c) dists 0 255 in
  let n := inject_Z (Z.of_nat (samples c)) in
  let m := (mean p * (n - 1) + low / 255) / n in
  let fg := Nat.ltb good (required c) in
  let t :=
    if fg then let t' := rate p + T_INCR / (m * T_SCALE + T_OFFST) in if Qltb T_UPPER t' then T_UPPER else t'
    else let t' := rate p - T_DECR / (m * T_SCALE + T_OFFST) in if Qltb t' T_LOWER then T_LOWER else t' in
  let r :=
    if Qltb (radius p) (R_LOWER + m * R_SCALE) then (if Qltb (radius p) R_UPPER then radius p * R_INCR else radius p)
    else if Qltb R_LOWER (radius p) then radius p * R_DECR else radius p in
  (fg, Qceiling (rate p), {| radius := r; rate := t; mean := m |}).

(* a video: the distances at each frame *)
Fixpoint play (c : config) (frames : list (list Q)) (p : pixel) : pixel :=
  match frames with
  | [] => p
  | f :: fs => play c fs (snd (step c f p))
  end.
