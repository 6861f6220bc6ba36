(** LBSP descriptors, modules/features2d/include/litiv/features2d/LBSP.hpp and modules/features2d/src/LBSP.cpp. *)
From Coq Require Import ZArith NArith List Bool QArith Qround.
From Verif Require Import Model.Bits Model.Distances Model.Simd Model.YCbCr.
Import ListNotations.
Open Scope Z_scope.

(** LBSP.hpp:197-202 the scalar path of computeDescriptor_threshold; [None] if a distance is undefined *)
Definition thr_scalar (anVals : list Z) (nRef nThreshold : Z) : option Z :=
  fold_left (fun nDesc '(n, v) => bind nDesc (fun d => bind (L1dist 8 v nRef) (fun dist =>
    Some (Z.lor d (Z.shiftl (if nThreshold <? dist then 1 else 0) (Z.of_nat n)) mod 2^16))))
    (combine (seq 0 16) anVals) (Some 0).

(** instructions not used elsewhere *)
Definition signed8 (x : Z) : Z := if x <? 128 then x else x - 256.
Definition max_epu8 (a b : reg) : reg := map2 Z.max a b.
Definition cmpgt_epi8 (a b : reg) : reg := map2 (fun x y => if signed8 y <? signed8 x then 255 else 0) a b.
Definition andnot_si128 (a b : reg) : reg := map2 (fun x y => Z.land (255 - x) y) a b.

(** LBSP.hpp:207-211,222 *)
Definition thr_sse41 (anVals : list Z) (nRef nThreshold : Z) : Z :=
  let input := anVals in
  let ref := set1_epi8 nRef in
  let dist := sub_epi8 (max_epu8 input ref) (min_epu8 input ref) in
  let cmp := cmpgt_epi8 (xor_si128 dist (set1_epi8 128)) (set1_epi8 (Z.lxor nThreshold 128)) in
  movemask_epi8 cmp mod 2^16.

(** LBSP.hpp:207-208,213-222 *)
Definition thr_sse2 (anVals : list Z) (nRef nThreshold : Z) : Z :=
  let flip := set1_epi8 128 in
  let dist := xor_si128 anVals flip in
  let ref := xor_si128 (set1_epi8 nRef) flip in
  let cmp := cmpgt_epi8 dist ref in
  let d1 := sub_epi8 dist ref in
  let d2 := sub_epi8 ref dist in
  let dist := or_si128 (and_si128 cmp d1) (andnot_si128 cmp d2) in
  let cmp := cmpgt_epi8 (xor_si128 dist flip) (set1_epi8 (Z.lxor nThreshold 128)) in
  movemask_epi8 cmp mod 2^16.

(** LBSP.hpp:297-298 *)
Definition off_x : list Z := [-2; 2; 0; 0; -2; 2; 2; -2; 0; -1; 0; 1; -1; 1; 1; -1].
Definition off_y : list Z := [0; 0; -2; 2; 2; -2; 2; -2; 1; 0; -1; 0; -1; 1; -1; 1].

(** LBSP.hpp:164-167 and 315-317: byte address read for neighbour n; [nRowStep*y] multiplies a size_t by an int converted to size_t,
    so everything is modulo 2^64 *)
Definition base_addr (data nRowStep nColStep y x c : Z) : Z := (data + y * nRowStep + x * nColStep + c) mod 2^64.
Definition lookup_addr (data nRowStep nColStep y x c : Z) (n : nat) : Z :=
  (base_addr data nRowStep nColStep y x c +
   ((nRowStep * (nth n off_y 0 mod 2^64)) mod 2^64 + (nColStep * (nth n off_x 0 mod 2^64)) mod 2^64) mod 2^64) mod 2^64.
(** debug assertions LBSP.hpp:162-163 *)
Definition lookup_pre (rows cols y x : Z) : bool :=
  (5 / 2 <=? x) && (5 / 2 <=? y) && (x <? cols - 5 / 2) && (y <? rows - 5 / 2).

(** LBSP.hpp:288-291 *)
Definition bitsum (l : list N) : N := fold_right (fun k acc => (2 ^ k + acc)%N) 0%N l.
Definition GradX_Pos : N := bitsum [0; 4; 7; 9; 12; 15]%N.
Definition GradX_Neg : N := bitsum [1; 5; 6; 11; 13; 14]%N.
Definition GradY_Pos : N := bitsum [3; 4; 6; 8; 13; 15]%N.
Definition GradY_Neg : N := bitsum [2; 5; 7; 10; 12; 14]%N.

Definition diff (a b : option N) : option Z :=
  match a, b with Some x, Some y => Some (Z.of_N x - Z.of_N y) | _, _ => None end.

(** LBSP.hpp:236-256 computeDescriptor_gradient from the thresholded descriptors of the channels [ds ++ [last]]:
    (nGradX, nGradY, nGradMag); popcount of desc_t is that of two bytes *)
Definition gradient_pick (ds : list N) (last : N) : option (N * N) :=
  fold_left (fun acc d => match acc, popcount 2 d with
                          | Some (best, mag), Some m => if (mag <? m)%N then Some (d, m) else Some (best, mag)
                          | _, _ => None end)
    ds (match popcount 2 last with Some m => Some (last, m) | None => None end).
Definition gradient (ds : list N) (last : N) : option (Z * Z * N) :=
  match gradient_pick ds last with
  | Some (d, mag) =>
      match diff (popcount 2 (N.land d GradX_Pos)) (popcount 2 (N.land d GradX_Neg)),
            diff (popcount 2 (N.land d GradY_Pos)) (popcount 2 (N.land d GradY_Neg)) with
      | Some gx, Some gy => Some (gx, gy, mag)
      | _, _ => None
      end
  | None => None
  end.
(** LBSP.hpp:243,246 the threshold of a channel in the gradient variant (defaults nAbsOffset=20, nRelShift=2), converted to uchar *)
Definition gradient_thr (nAbsOffset nRelShift ref : Z) : Z := ((ref / 2 ^ nRelShift + nAbsOffset) / 2) mod 256.

(** cv::saturate_cast<uchar>(int) *)
Definition sat_uchar (v : Z) : Z := if v <? 0 then 0 else if 255 <? v then 255 else v.
(** LBSP.cpp:108,161 *)
Definition abs_threshold (nThreshold : Z) : Z := sat_uchar (signed32 nThreshold).
(** cvRound(float): nearest, ties to even; the conversion instruction returns INT_MIN when the result is not an int *)
Definition half_even (x : Q) : Z :=
  let n := Qfloor x in
  match Qcompare (x - inject_Z n) (1 # 2) with
  | Lt => n | Gt => n + 1 | Eq => if Z.even n then n else n + 1 end.
Definition cvRound (x : Q) : Z := let r := half_even x in if (- 2^31 <=? r) && (r <? 2^31) then r else - 2^31.
(** LBSP.cpp:135,145-147,206,220-222; [fl] is the rounding of the float operations *)
Definition rel_threshold (fl : Q -> Q) (ref : Z) (fThreshold : Q) (nThresholdOffset : Z) : Z :=
  sat_uchar (cvRound (fl (fl (inject_Z ref * fThreshold) + fl (inject_Z nThresholdOffset))))%Q.

(** LBSP.cpp:102-152 which pixels of the descriptor map are written, in loop order (rows, columns) *)
Definition written (rows cols : Z) : list (Z * Z) :=
  list_prod (map (fun i => 2 + Z.of_nat i) (seq 0 (Z.to_nat (rows - 2 - 2)))) (map (fun i => 2 + Z.of_nat i) (seq 0 (Z.to_nat (cols - 2 - 2)))).

(** LBSP.cpp:317-361 calcDescImgDiff: fScaleFactor = 255/16 = 15.9375 and its products with 0..16 (also divided by 3) are exact in binary32 *)
Definition scale : Q := 255 # 16.
Definition trunc_uchar (x : Q) : Z := Qfloor x mod 256.
Definition img_diff (d1 d2 : N) : option Z :=
  match hdist 2 d1 d2 with Some h => Some (trunc_uchar (scale * inject_Z (Z.of_N h))) | None => None end.
Definition img_diff_merged (d1 d2 : list N) : option Z :=
  fold_left (fun acc '(a, b) => match acc, hdist 2 a b with
     | Some s, Some h => Some ((s + trunc_uchar (scale * inject_Z (Z.of_N h) / 3)) mod 256) | _, _ => None end) (combine d1 d2) (Some 0).
