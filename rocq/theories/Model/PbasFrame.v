(* Whole frames in the PBAS background subtractors, modules/video/src/BackgroundSubtractorPBAS.cpp: initialization and frame processing of the
   one-channel and three-channel versions, with the contents of the samples; the feedback of one pixel is that of Model/Pbas.v.
   Points are (x, y). BGSPBAS_USE_SELF_DIFFUSION is 1. Random numbers are taken in order from a sequence standing for rand(), whose values are
   non-negative. The gradient images (blur, Scharr operator and mean of absolute values, lines 80-90 and 116-126) are given with the frames.
   Not modelled: the median filter on the final mask (line 264), getBackgroundImage; the mask given by the caller has no row gaps. *)
From Coq Require Import ZArith QArith Qround List Bool.
From Verif Require Import Lib.Grid Model.Distances Model.Sampling Model.Vibe Model.Pbas.
Import ListNotations.
Open Scope Z_scope.

(* the colour version takes square roots of 16-bit numbers (math.hpp:391-397), in single precision: [root] is that function *)
Inductive mode := Grey | Colours (root : Z -> Q).
Record setup := { mode_of : mode; loop : Pbas.config; first_rate : Q }.

(* an input image: values, gradient image, distance between its rows (in pixels), learning rate override rounded up if positive *)
Record frame := { value : Z * Z -> list Z; grad : Z * Z -> list Z; stride : Z; override : option Z }.

(* m_voBGImg and m_voBGGrad by sample and offset in the buffer; m_oDistThresholdFrame, m_oUpdateRateFrame, m_oMeanMinDistFrame; m_fFormerMeanGradDist;
   nFrameTotGradDist and nFrameTotBadSamplesCount; how many random numbers were used *)
Record state := { bg : nat -> Z -> list Z * list Z; fb : Z -> Pbas.pixel; norm : Q; gsum : Q; bads : Z; used : nat }.

(* place of a point in a buffer without gaps, and back *)
Definition flat (size p : Z * Z) : Z := fst size * snd p + fst p.
Definition point (size : Z * Z) (i : Z) : Z * Z := (i mod fst size, i / fst size).

Definition store {A} (m : nat -> Z -> A) (s : nat) (i : Z) (v : A) : nat -> Z -> A :=
  fun s' i' => if Nat.eqb s' s && (i' =? i) then v else m s' i'.
Definition assign {A} (m : Z -> A) (i : Z) (v : A) : Z -> A := fun i' => if i' =? i then v else m i'.

(* lines 95-106, 315-326: one sample of one pixel *)
Definition init_one (rnd : nat -> Z) (size : Z * Z) (f : frame) (st : state) (sp : nat * (Z * Z)) : state :=
  let q := getSamplePosition_7x7_std2 (rnd (used st)) (snd sp) 0 size in
  {| bg := store (bg st) (fst sp) (flat size (snd sp)) (value f q, grad f q); fb := fb st; norm := norm st; gsum := gsum st; bads := bads st;
     used := S (used st) |}.
(* lines 29, 60-108, 274-328; the image has no row gaps (lines 62, 276) *)
Definition initialize (c : setup) (rnd : nat -> Z) (size : Z * Z) (f : frame) : state :=
  fold_left (init_one rnd size f) (list_prod (seq 0 (samples (loop c))) (raster size))
    {| bg := fun _ _ => ([], []); fb := fun _ => Pbas.start (first_rate c); norm := 20; gsum := 0; bads := 1; used := 0 |}.

(* lines 150-151: L1dist of bytes, lines 376-379: L2dist of cv::Vec3b *)
Definition channel_dist (m : mode) (v b : list Z) : Q :=
  match m with
  | Grey => match L1dist 8 (hd 0 v) (hd 0 b) with Some d => inject_Z d | None => 0 end
  | Colours root => match L2dist_radicand 8 v b with Some q => root q | None => 0 end
  end.
(* lines 152, 380: the distance to a sample, before it is cut to 255; and its gradient part *)
Definition dist (m : mode) (n : Q) (v g : list Z) (b : list Z * list Z) : Q * Q :=
  let gd := channel_dist m g (snd b) in
  (10 / n * gd + channel_dist m v (fst b), gd)%Q.

(* lines 149-163, 373-391: gradient distances of the samples found too far *)
Fixpoint too_far (thr : Q) (req : nat) (l : list (Q * Q)) (good : nat) (sum : Q) (n : Z) : Q * Z :=
  match l with
  | [] => (sum, n)
  | (d, g) :: l' =>
    if Nat.ltb good req then
      if Qle_bool (if Qltb 255 d then 255%Q else d) thr then too_far thr req l' (S good) sum n else too_far thr req l' good (sum + g)%Q (n + 1)
    else (sum, n)
  end.

(* lines 141, 365: the offset used for the buffers *)
Definition offset (m : mode) (size : Z * Z) (f : frame) (p : Z * Z) : Z :=
  match m with Grey => stride f * snd p + fst p | Colours _ => flat size p end.

(* lines 141-219, 365-447: whether the pixel is foreground, and the new model; None is an access outside of a buffer *)
Definition apply_pixel (c : setup) (rnd : nat -> Z) (size : Z * Z) (f : frame) (st : state) (p : Z * Z) : option (bool * state) :=
  let i := offset (mode_of c) size f p in
  if negb (i <? fst size * snd size) then None else
  let v := value f p in
  let g := grad f (point size i) in
  let l := map (fun s => dist (mode_of c) (norm st) v g (bg st s i)) (seq 0 (samples (loop c))) in
  let '(fg, rate, px) := Pbas.step (loop c) (map fst l) (fb st i) in
  let (sum, n) := too_far (radius (fb st i) * inject_Z (threshold (loop c))) (required (loop c)) l 0 (gsum st) (bads st) in
  let st0 := {| bg := bg st; fb := assign (fb st) i px; norm := norm st; gsum := sum; bads := n; used := used st |} in
  if fg then Some (true, st0)
  else
    let rate := match override f with Some r => r | None => rate end in
    let k := used st0 in
    let st1 :=
      if rnd k mod rate =? 0
      then {| bg := store (bg st0) (Z.to_nat (rnd (S k) mod Z.of_nat (samples (loop c)))) i (v, g);
              fb := fb st0; norm := norm st0; gsum := gsum st0; bads := bads st0; used := S (S k) |}
      else {| bg := bg st0; fb := fb st0; norm := norm st0; gsum := gsum st0; bads := bads st0; used := S k |} in
    let k1 := used st1 in
    if rnd k1 mod rate =? 0
    then
      match getNeighborPosition_3x3 (rnd (S k1)) p 0 size with
      | Some q =>
        Some (false, {| bg := store (bg st1) (Z.to_nat (rnd (S (S k1)) mod Z.of_nat (samples (loop c)))) (flat size q) (value f q, grad f q);
                        fb := fb st1; norm := norm st1; gsum := gsum st1; bads := bads st1; used := S (S (S k1)) |})
      | None => None
      end
    else Some (false, {| bg := bg st1; fb := fb st1; norm := norm st1; gsum := gsum st1; bads := bads st1; used := S k1 |}).

Fixpoint apply_pixels (c : setup) (rnd : nat -> Z) (size : Z * Z) (f : frame) (l : list (Z * Z)) (st : state)
  : option (list ((Z * Z) * bool) * state) :=
  match l with
  | [] => Some ([], st)
  | p :: l' =>
      match apply_pixel c rnd size f st p with
      | None => None
      | Some (fg, st1) =>
          match apply_pixels c rnd size f l' st1 with
          | None => None
          | Some (m, st2) => Some ((p, fg) :: m, st2)
          end
      end
  end.

(* apply, lines 110-222, 330-450: the foreground mask before filtering, and the new model *)
Definition apply (c : setup) (rnd : nat -> Z) (size : Z * Z) (f : frame) (st : state) : option (list ((Z * Z) * bool) * state) :=
  match apply_pixels c rnd size f (raster size) {| bg := bg st; fb := fb st; norm := norm st; gsum := 0; bads := 1; used := used st |} with
  | None => None
  | Some (m, st') =>
      let mean := (gsum st' / inject_Z (bads st'))%Q in
      Some (m, {| bg := bg st'; fb := fb st'; norm := if Qltb mean 20 then 20 else mean; gsum := gsum st'; bads := bads st'; used := used st' |})
  end.

(* a video *)
Fixpoint play (c : setup) (rnd : nat -> Z) (size : Z * Z) (frames : list frame) (st : state) : option state :=
  match frames with
  | [] => Some st
  | f :: fs => match apply c rnd size f st with None => None | Some (_, st') => play c rnd size fs st' end
  end.
