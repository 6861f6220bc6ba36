(** SSE registers and the helpers of modules/utils/include/litiv/utils/simd.hpp. A 128-bit register is a little-endian list of 16 bytes
    (integers in [0,256)); each instruction is defined on bytes or on lanes recombined from bytes. Semantics of the individual
    instructions are taken from the Intel reference; that is part of the trusted transcription. *)
From Coq Require Import ZArith List.
Import ListNotations.
Open Scope Z_scope.

Definition reg := list Z.
Fixpoint le (l : list Z) : Z := match l with [] => 0 | b :: r => b + 256 * le r end.
Fixpoint unle (n : nat) (x : Z) : list Z := match n with O => [] | S k => x mod 256 :: unle k (x / 256) end.
(** lanes of k bytes *)
Fixpoint lanes_ (fuel k : nat) (r : reg) : list Z :=
  match fuel with O => [] | S f => match r with [] => [] | _ => le (firstn k r) :: lanes_ f k (skipn k r) end end.
Definition lanes (k : nat) (r : reg) : list Z := lanes_ 16 k r.
Definition unlanes (k : nat) (l : list Z) : reg := flat_map (unle k) l.
Definition signed32 (x : Z) : Z := let y := x mod 2^32 in if y <? 2^31 then y else y - 2^32.

Fixpoint map2 {A B C} (f : A -> B -> C) (a : list A) (b : list B) : list C :=
  match a, b with x :: a', y :: b' => f x y :: map2 f a' b' | _, _ => [] end.
Definition lanewise (k : nat) (f : Z -> Z -> Z) (a b : reg) : reg := unlanes k (map2 f (lanes k a) (lanes k b)).
Definition lanemap (k : nat) (f : Z -> Z) (a : reg) : reg := unlanes k (map f (lanes k a)).

(** instructions *)
Definition set1_epi8 (v : Z) : reg := repeat (v mod 256) 16.
Definition sad_epu8 (a b : reg) : reg :=
  let d := map2 (fun x y => Z.abs (x - y)) a b in
  unle 8 (fold_right Z.add 0 (firstn 8 d)) ++ unle 8 (fold_right Z.add 0 (skipn 8 d)).
Definition srli_si128 (a : reg) (n : nat) : reg := skipn n a ++ repeat 0 n.
Definition add_epi64 (a b : reg) : reg := lanewise 8 Z.add a b.
Definition add_epi32 (a b : reg) : reg := lanewise 4 Z.add a b.
Definition sub_epi8 (a b : reg) : reg := map2 (fun x y => (x - y) mod 256) a b.
Definition or_si128 (a b : reg) : reg := map2 Z.lor a b.
Definition xor_si128 (a b : reg) : reg := map2 Z.lxor a b.
Definition mullo_epi16 (a b : reg) : reg := lanewise 2 Z.mul a b.
Definition mullo_epi32 (a b : reg) : reg := lanewise 4 Z.mul a b.
Definition srli_epi16 (a : reg) (n : Z) : reg := lanemap 2 (fun x => x / 2 ^ n) a.
Definition slli_epi16 (a : reg) (n : Z) : reg := lanemap 2 (fun x => x * 2 ^ n) a.
Definition min_epu8 (a b : reg) : reg := map2 Z.min a b.
Definition max_epi32 (a b : reg) : reg := lanewise 4 (fun x y => Z.max (signed32 x) (signed32 y)) a b.
Definition cmpeq_epi32 (a b : reg) : reg := lanewise 4 (fun x y => if x =? y then 2^32 - 1 else 0) a b.
(** lanes 0 and 2 multiplied to 64 bits *)
Definition mul_epu32 (a b : reg) : reg :=
  unle 8 (le (firstn 4 a) * le (firstn 4 b)) ++ unle 8 (le (firstn 4 (skipn 8 a)) * le (firstn 4 (skipn 8 b))).
(** _MM_SHUFFLE(z,y,x,w): destination lane 0 takes source lane w, lane 1 takes x, lane 2 takes y, lane 3 takes z *)
Definition shuffle_epi32 (a : reg) (z y x w : nat) : reg :=
  let g i := firstn 4 (skipn (4 * i) a) in g w ++ g x ++ g y ++ g z.
Definition shufflelo_epi16 (a : reg) (z y x w : nat) : reg :=
  let g i := firstn 2 (skipn (2 * i) a) in g w ++ g x ++ g y ++ g z ++ skipn 8 a.
Definition unpacklo_epi32 (a b : reg) : reg :=
  firstn 4 a ++ firstn 4 b ++ firstn 4 (skipn 4 a) ++ firstn 4 (skipn 4 b).
Fixpoint interleave (a b : list Z) : list Z := match a, b with x :: a', y :: b' => x :: y :: interleave a' b' | _, _ => [] end.
Definition unpacklo_epi8 (a b : reg) : reg := interleave (firstn 8 a) (firstn 8 b).
Definition unpackhi_epi8 (a b : reg) : reg := interleave (skipn 8 a) (skipn 8 b).
(** minimum of the eight 16-bit lanes in the low lane, its index in the next one *)
Fixpoint minpos (l : list Z) (i : nat) : Z * nat :=
  match l with
  | [] => (2 ^ 16, i)
  | x :: r => let '(m, j) := minpos r (S i) in if x <=? m then (x, i) else (m, j)
  end.
Definition minpos_epu16 (a : reg) : reg :=
  let '(m, j) := minpos (lanes 2 a) 0 in unle 2 m ++ unle 2 (Z.of_nat j) ++ repeat 0 12.
Definition cvtsi128_si32 (a : reg) : Z := signed32 (le (firstn 4 a)).
(** _mm_testz_si128(a,b) = ZF (a AND b = 0); _mm_testc_si128(a,b) = CF ((NOT a) AND b = 0) *)
Definition testz (a b : reg) : Z := if le (map2 Z.land a b) =? 0 then 1 else 0.
Definition testc (a b : reg) : Z := if le (map2 (fun x y => Z.land (255 - x) y) a b) =? 0 then 1 else 0.
Definition movemask_epi8 (a : reg) : Z := fold_right (fun b acc => b / 128 + 2 * acc) 0 a.
Definition extract_epi16 (a : reg) (i : nat) : Z := le (firstn 2 (skipn (2 * i) a)).
Definition setzero : reg := repeat 0 16.

(** the helpers; HAVE_SSE4_1 variants separately *)
(** simd.hpp:52-59 *)
Definition cmp_zero_sse41 (a : reg) : bool := negb (testz a a =? 0).
Definition cmp_zero_sse2 (a : reg) : bool := movemask_epi8 (cmpeq_epi32 a setzero) =? 65535.
(** simd.hpp:62-69 *)
Definition cmp_eq_sse41 (a b : reg) : bool := negb (testc setzero (xor_si128 a b) =? 0).
Definition cmp_eq_sse2 (a b : reg) : bool := movemask_epi8 (cmpeq_epi32 a b) =? 65535.
(** simd.hpp:72-75 *)
Definition hsum_8ui (a : reg) : Z :=
  let r := sad_epu8 a (set1_epi8 0) in cvtsi128_si32 (add_epi64 (srli_si128 r 8) r) mod 2^32.
(** simd.hpp:78-82 *)
Definition hsum_32i (a : reg) : Z :=
  let s64 := add_epi32 a (shuffle_epi32 a 1 0 3 2) in
  let s32 := add_epi32 (shufflelo_epi16 s64 1 0 3 2) s64 in cvtsi128_si32 s32.
(** simd.hpp:99-102 *)
Definition unpack_8ui_to_16ui (low : bool) (a : reg) : reg := if low then unpacklo_epi8 a setzero else unpackhi_epi8 a setzero.
(** simd.hpp:105-109 *)
Definition mult_8i (a b : reg) : reg :=
  let even := mullo_epi16 a b in
  let odd := mullo_epi16 (srli_epi16 a 8) (srli_epi16 b 8) in
  or_si128 (slli_epi16 odd 8) (srli_epi16 (slli_epi16 even 8) 8).
(** simd.hpp:112-118 *)
Definition mult_32si_sse41 (a b : reg) : reg := mullo_epi32 a b.
Definition mult_32si_sse2 (a b : reg) : reg :=
  unpacklo_epi32 (shuffle_epi32 (mul_epu32 a b) 0 0 2 0)
                 (shuffle_epi32 (mul_epu32 (srli_si128 a 4) (srli_si128 b 4)) 0 0 2 0).
(** simd.hpp:121-129; the SSE2 branch groups as (lo+hi)<<16. Simplified: the left shift of an int past bit 31 (undefined before C++20)
    is taken to wrap *)
Definition extract_32si_sse41 (a : reg) (i : nat) : Z := signed32 (le (firstn 4 (skipn (4 * i) a))).
Definition extract_32si_sse2 (a : reg) (i : nat) : Z := signed32 ((extract_epi16 a (i * 2) + extract_epi16 a (i * 2 + 1)) * 2 ^ 16).
(** simd.hpp:136-138, 141-143, 146-149 *)
Definition hmin_8ui (a : reg) : Z := cvtsi128_si32 (minpos_epu16 (min_epu8 a (srli_epi16 a 8))) mod 256.
Definition hmax_8ui (a : reg) : Z := (255 - hmin_8ui (sub_epi8 (set1_epi8 (-1)) a)) mod 256.
Definition hmax_32si (a : reg) : Z :=
  let h := max_epi32 a (shuffle_epi32 a 0 0 3 2) in cvtsi128_si32 (max_epi32 h (shuffle_epi32 h 0 0 0 1)).
