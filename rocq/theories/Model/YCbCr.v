(** Packed YCbCr conversion, modules/utils/include/litiv/utils/opencv.hpp:1216-1307. The colour space conversions around it
    (cv::cvtColor, cv::split, cv::merge) are not modelled: the model starts and ends at the three 8-bit planes of one row. *)
From Coq Require Import ZArith List.
From Verif Require Import Model.Simd.
Import ListNotations.
Open Scope Z_scope.

(** opencv.hpp:1254 (scalar) *)
Definition pack1 (y cr cb : Z) : Z := (y + Z.shiftl (Z.shiftr cr 4) 8 + Z.shiftl (Z.shiftr cb 4) 12) mod 2^16.
(** opencv.hpp:1299-1301 (scalar) *)
Definition unpack1 (p : Z) : Z * Z * Z :=
  (p mod 256, Z.shiftl (Z.land (Z.shiftr p 8) 15) 4 mod 256, Z.shiftl (Z.shiftr p 12) 4 mod 256).

(** opencv.hpp:1240-1250: 16 pixels with SSE2; the result is the two stored registers, low then high *)
Definition pack_sse2 (y cr cb : reg) : reg * reg :=
  let f low := or_si128 (unpack_8ui_to_16ui low y)
    (or_si128 (slli_epi16 (srli_epi16 (unpack_8ui_to_16ui low cr) 4) 8)
              (slli_epi16 (srli_epi16 (unpack_8ui_to_16ui low cb) 4) 12)) in
  (f true, f false).
(** _mm_and_si128, _mm_set1_epi16, _mm_packus_epi16 (signed 16-bit to unsigned 8-bit with saturation) *)
Definition and_si128 (a b : reg) : reg := map2 Z.land a b.
Definition set1_epi16 (v : Z) : reg := unlanes 2 (repeat (v mod 2^16) 8).
Definition sat_u8 (x : Z) : Z := let s := if x <? 2^15 then x else x - 2^16 in if s <? 0 then 0 else if 255 <? s then 255 else s.
Definition packus_epi16 (a b : reg) : reg := map sat_u8 (lanes 2 a ++ lanes 2 b).
(** opencv.hpp:1284-1295 *)
Definition unpack_sse2 (lo hi : reg) : reg * reg * reg :=
  let crmask := set1_epi16 15 in let ymask := set1_epi16 255 in
  (packus_epi16 (and_si128 lo ymask) (and_si128 hi ymask),
   packus_epi16 (slli_epi16 (and_si128 (srli_epi16 lo 8) crmask) 4) (slli_epi16 (and_si128 (srli_epi16 hi 8) crmask) 4),
   packus_epi16 (slli_epi16 (srli_epi16 lo 12) 4) (slli_epi16 (srli_epi16 hi 12) 4)).

(** one row: blocks of 16 through SSE2 while nColIdx <= cols-16, then the scalar tail (opencv.hpp:1235-1254) *)
Fixpoint zip3 (y cr cb : list Z) : list Z :=
  match y, cr, cb with a :: y', b :: cr', c :: cb' => pack1 a b c :: zip3 y' cr' cb' | _, _, _ => [] end.
Fixpoint pack_row (fuel : nat) (y cr cb : list Z) : list Z :=
  match fuel with
  | O => zip3 y cr cb
  | S f => if Nat.leb 16 (length y)
           then let '(lo, hi) := pack_sse2 (firstn 16 y) (firstn 16 cr) (firstn 16 cb) in
                lanes 2 lo ++ lanes 2 hi ++ pack_row f (skipn 16 y) (skipn 16 cr) (skipn 16 cb)
           else zip3 y cr cb
  end.
(** opencv.hpp:1281-1302; a row of 16-bit values *)
Fixpoint unpack_row (fuel : nat) (p : list Z) : list (Z * Z * Z) :=
  match fuel with
  | O => map unpack1 p
  | S f => if Nat.leb 16 (length p)
           then let '(y, cr, cb) := unpack_sse2 (unlanes 2 (firstn 8 p)) (unlanes 2 (firstn 8 (skipn 8 p))) in
                combine (combine y cr) cb ++ unpack_row f (skipn 16 p)
           else map unpack1 p
  end.
