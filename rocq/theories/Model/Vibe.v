(* The ViBe background subtractors, modules/video/src/BackgroundSubtractorViBe.cpp: initialization and frame processing of the one-channel
   and three-channel versions. Points are (x, y). Random numbers are taken in order from a sequence standing for rand(), whose values are
   non-negative. The learning rate is given rounded up (lines 84 and 151). getBackgroundImage is not modelled. *)
From Coq Require Import ZArith List Bool.
From Verif Require Import Lib.Grid Model.Distances Model.Sampling.
Import ListNotations.
Open Scope Z_scope.

Inductive kind := Gray | Colour.
Record config := { kind_of : kind; threshold : Z; samples : nat; required : nat }.

(* m_voBGImg: sample index, point; and how many random numbers were used *)
Record state := { bg : nat -> Z * Z -> list Z; used : nat }.

Definition put (m : nat -> Z * Z -> list Z) (s : nat) (p : Z * Z) (v : list Z) : nat -> Z * Z -> list Z :=
  fun s' p' => if Nat.eqb s' s && ((fst p' =? fst p) && (snd p' =? snd p)) then v else m s' p'.

(* the points of an image in processing order: lines 65-66, 85-86 *)
Definition raster (size : Z * Z) : list (Z * Z) :=
  flat_map (fun y => map (fun x => (x, y)) (zrange 0 (fst size))) (zrange 0 (snd size)).

(* lines 62-72, 125-134: one sample of one pixel *)
Definition init_one (rnd : nat -> Z) (size : Z * Z) (img : Z * Z -> list Z) (st : state) (sp : nat * (Z * Z)) : state :=
  let q := getSamplePosition_7x7_std2 (rnd (used st)) (snd sp) 0 size in
  {| bg := put (bg st) (fst sp) (snd sp) (img q); used := S (used st) |}.
Definition initialize (c : config) (rnd : nat -> Z) (size : Z * Z) (img : Z * Z -> list Z) : state :=
  fold_left (init_one rnd size img) (list_prod (seq 0 (samples c)) (raster size)) {| bg := fun _ _ => []; used := 0 |}.

(* line 89, and line 169 (BGSVIBE_USE_L1_DISTANCE_CHECK is 0, BGSVIBE_USE_SC_THRS_VALIDATION is 0): the square root of a 16-bit number,
   in single precision, is below an integer exactly when the number is below its square *)
Definition close (c : config) (v b : list Z) : bool :=
  match kind_of c with
  | Gray => match L1dist 8 (hd 0 v) (hd 0 b) with Some d => d <? threshold c | None => false end
  | Colour => match L2dist_radicand 8 v b with Some q => q <? (threshold c * 3) * (threshold c * 3) | None => false end
  end.

(* lines 87-92 and 157-176 *)
Fixpoint good_count (c : config) (v : list Z) (l : list (list Z)) (good : nat) : nat :=
  match l with
  | [] => good
  | b :: l' => if Nat.ltb good (required c) then good_count c v l' (if close c v b then S good else good) else good
  end.

(* lines 93-103 and 177-188: whether the pixel is foreground, and the updated model *)
Definition apply_pixel (c : config) (rnd : nat -> Z) (rate : Z) (size : Z * Z) (img : Z * Z -> list Z) (st : state) (p : Z * Z) : bool * state :=
  let n := good_count c (img p) (map (fun s => bg st s p) (seq 0 (samples c))) 0 in
  if Nat.ltb n (required c) then (true, st)
  else
    let k := used st in
    let st1 :=
      if rnd k mod rate =? 0
      then {| bg := put (bg st) (Z.to_nat (rnd (S k) mod Z.of_nat (samples c))) p (img p); used := S (S k) |}
      else {| bg := bg st; used := S k |} in
    let k1 := used st1 in
    let st2 :=
      if rnd k1 mod rate =? 0
      then
        match getNeighborPosition_3x3 (rnd (S k1)) p 0 size with
        | Some q => {| bg := put (bg st1) (Z.to_nat (rnd (S (S k1)) mod Z.of_nat (samples c))) q (img p); used := S (S (S k1)) |}
        | None => st1 (* not reached: rand() is never negative *)
        end
      else {| bg := bg st1; used := S k1 |} in
    (false, st2).

Fixpoint apply_pixels (c : config) (rnd : nat -> Z) (rate : Z) (size : Z * Z) (img : Z * Z -> list Z) (l : list (Z * Z)) (st : state)
  : list ((Z * Z) * bool) * state :=
  match l with
  | [] => ([], st)
  | p :: l' =>
      let '(fg, st1) := apply_pixel c rnd rate size img st p in
      let '(m, st2) := apply_pixels c rnd rate size img l' st1 in
      ((p, fg) :: m, st2)
  end.

(* apply: the foreground mask and the new model *)
Definition apply (c : config) (rnd : nat -> Z) (rate : Z) (size : Z * Z) (img : Z * Z -> list Z) (st : state) : list ((Z * Z) * bool) * state :=
  apply_pixels c rnd rate size img (raster size) st.

(* a video: frames with their learning rates *)
Fixpoint play (c : config) (rnd : nat -> Z) (size : Z * Z) (frames : list ((Z * Z -> list Z) * Z)) (st : state) : state :=
  match frames with
  | [] => st
  | (img, rate) :: fs => play c rnd size fs (snd (apply c rnd rate size img st))
  end.
