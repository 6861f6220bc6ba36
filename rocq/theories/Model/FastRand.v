(** The LCG random generators of modules/utils/include/litiv/utils/math.hpp.
    A 32-bit register is its unsigned value in [0,2^32). *)
From Coq Require Import ZArith List Bool.
Import ListNotations.
Open Scope Z_scope.

(** two's complement reading of a 32-bit pattern *)
Definition signed32 (x : Z) : Z := if x <? 2 ^ 31 then x else x - 2 ^ 32.
Definition in_int32 (x : Z) : bool := (- 2 ^ 31 <=? x) && (x <? 2 ^ 31).

(** math.hpp:61: [nSeed = (214013*nSeed+2531011)] when int arithmetic wraps (as the generated code does) *)
Definition lcg (s : Z) : Z := (214013 * s + 2531011) mod 2 ^ 32.
(** math.hpp:62: [(nSeed>>16)&0x7FFF] : arithmetic shift of the signed value, then mask *)
Definition lcg_out (s : Z) : Z := Z.land (Z.shiftr (signed32 s) 16) 32767.
(** math.hpp:59-63 [fastrand]: (returned value, new seed) *)
Definition fastrand (s : Z) : Z * Z := (lcg_out (lcg s), lcg s).

(** math.hpp:59-63 as standard C++: the multiplication and the addition are signed int operations, so
    leaving the int range is undefined ([None]). Seeds are signed here. *)
Definition fastrand_checked (s : Z) : option (Z * Z) :=
  let m := 214013 * s in
  if in_int32 m && in_int32 (m + 2531011)
  then Some (Z.land (Z.shiftr (m + 2531011) 16) 32767, m + 2531011)
  else None.

(** [n] consecutive calls *)
Fixpoint lcg_iter (n : nat) (s : Z) : Z := match n with O => s | S n' => lcg (lcg_iter n' s) end.

(** ** the SSE2 generator; a __m128i is four 32-bit lanes, lowest first *)
Definition v4 : Type := Z * Z * Z * Z.
Definition lo32 (x : Z) : Z := x mod 2 ^ 32.
Definition hi32 (x : Z) : Z := (x / 2 ^ 32) mod 2 ^ 32.
(** _mm_shuffle_epi32(x,_MM_SHUFFLE(2,3,0,1)) *)
Definition shuf2301 (x : v4) : v4 := let '(a, b, c, d) := x in (b, a, d, c).
(** _mm_mul_epu32: 64-bit products of lanes 0 and 2 *)
Definition mul_epu32 (x y : v4) : v4 :=
  let '(a, _, c, _) := x in let '(e, _, g, _) := y in
  (lo32 (a * e), hi32 (a * e), lo32 (c * g), hi32 (c * g)).
Definition map2_v4 (f : Z -> Z -> Z) (x y : v4) : v4 :=
  let '(a, b, c, d) := x in let '(e, f', g, h) := y in (f a e, f b f', f c g, f d h).
Definition and_v4 := map2_v4 Z.land.
Definition or_v4 := map2_v4 Z.lor.
Definition add_epi32 := map2_v4 (fun a b => lo32 (a + b)).
Definition srai16 (x : Z) : Z := lo32 (Z.shiftr (signed32 x) 16).
Definition map_v4 (f : Z -> Z) (x : v4) : v4 := let '(a, b, c, d) := x in (f a, f b, f c, f d).

(** math.hpp:68-71 [sfastrand_vec]: _mm_set_epi32 lists lanes from the highest *)
Definition sfastrand_vec (s : Z) : v4 := (lo32 (s + 1), lo32 s, lo32 (s + 1), lo32 s).

(** math.hpp:100-115 the new generator state of [fastrand_vec] *)
Definition fastrand_vec_state (g : v4) : v4 :=
  let adder := (2531011, 10395331, 13737667, 1) in
  let multiplier := (214013, 17405, 214013, 69069) in
  let mod_mask := (4294967295, 0, 4294967295, 0) in
  let cur := shuf2301 g in
  let g := mul_epu32 g multiplier in
  let multiplier := shuf2301 multiplier in
  let cur := mul_epu32 cur multiplier in
  let g := and_v4 g mod_mask in
  let cur := and_v4 cur mod_mask in
  let cur := shuf2301 cur in
  let g := or_v4 g cur in
  add_epi32 g adder.
(** math.hpp:116-130 the result (bStdCompat selects 15-bit outputs) *)
Definition fastrand_vec (std : bool) (g : v4) : v4 * v4 :=
  let g' := fastrand_vec_state g in
  ((if std then and_v4 (map_v4 srai16 g') (32767, 32767, 32767, 32767) else g'), g').
