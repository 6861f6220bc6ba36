(** Bit-level helpers of modules/utils/include/litiv/utils/math.hpp.
    Unsigned n-bit values are elements of N below 2^n; every operation that can leave the range is
    followed by an explicit reduction. *)
From Coq Require Import NArith ZArith List Bool.
Import ListNotations.
Open Scope N_scope.

(** reduction of a natural number to [w] bits (what storing in a uintw_t does) *)
Definition wrap (w x : N) : N := x mod 2 ^ w.

(** unsigned subtraction of one in [w] bits: 0 becomes 2^w-1 (math.hpp:41, 49: [nVal-1], [--nVal]) *)
Definition dec_wrap (w x : N) : N := wrap w (x + (2 ^ w - 1)).

(** math.hpp:38-42 [ispow2] instantiated on an unsigned [w]-bit type *)
Definition ispow2 (w n : N) : bool := N.land n (dec_wrap w n) =? 0.

(** math.hpp:50-54: [nVal |= nVal>>s] *)
Definition smear (s x : N) : N := N.lor x (N.shiftr x s).

(** math.hpp:48-56 [get_next_pow2] (uint32_t) *)
Definition get_next_pow2 (n : N) : N :=
  let v := dec_wrap 32 n in
  let v := smear 1 v in
  let v := smear 2 v in
  let v := smear 4 v in
  let v := smear 8 v in
  let v := smear 16 v in
  wrap 32 (v + 1).

(** math.hpp:632-649 the 256-entry popcount table, copied row by row *)
Definition popcnt_lut8 : list N :=
  [ 0; 1; 1; 2; 1; 2; 2; 3; 1; 2; 2; 3; 2; 3; 3; 4;
    1; 2; 2; 3; 2; 3; 3; 4; 2; 3; 3; 4; 3; 4; 4; 5;
    1; 2; 2; 3; 2; 3; 3; 4; 2; 3; 3; 4; 3; 4; 4; 5;
    2; 3; 3; 4; 3; 4; 4; 5; 3; 4; 4; 5; 4; 5; 5; 6;
    1; 2; 2; 3; 2; 3; 3; 4; 2; 3; 3; 4; 3; 4; 4; 5;
    2; 3; 3; 4; 3; 4; 4; 5; 3; 4; 4; 5; 4; 5; 5; 6;
    2; 3; 3; 4; 3; 4; 4; 5; 3; 4; 4; 5; 4; 5; 5; 6;
    3; 4; 4; 5; 4; 5; 5; 6; 4; 5; 5; 6; 5; 6; 6; 7;
    1; 2; 2; 3; 2; 3; 3; 4; 2; 3; 3; 4; 3; 4; 4; 5;
    2; 3; 3; 4; 3; 4; 4; 5; 3; 4; 4; 5; 4; 5; 5; 6;
    2; 3; 3; 4; 3; 4; 4; 5; 3; 4; 4; 5; 4; 5; 5; 6;
    3; 4; 4; 5; 4; 5; 5; 6; 4; 5; 5; 6; 5; 6; 6; 7;
    2; 3; 3; 4; 3; 4; 4; 5; 3; 4; 4; 5; 4; 5; 5; 6;
    3; 4; 4; 5; 4; 5; 5; 6; 4; 5; 5; 6; 5; 6; 6; 7;
    3; 4; 4; 5; 4; 5; 5; 6; 4; 5; 5; 6; 5; 6; 6; 7;
    4; 5; 5; 6; 5; 6; 6; 7; 5; 6; 6; 7; 6; 7; 7; 8 ].

(** math.hpp:628-651 [popcount] of one byte: table access, [None] when outside the table *)
Definition popcount8 (x : N) : option N := nth_error popcnt_lut8 (N.to_nat x).

(** math.hpp:676-683 [popcount] of an integer of [nb] bytes; the sum lives in the 8-bit type Tout *)
Fixpoint popcount_bytes (nb : nat) (l : nat) (x acc : N) : option N :=
  match nb with
  | O => Some acc
  | S nb' =>
      match popcount8 (wrap 8 (N.shiftr x (N.of_nat l * 8))) with
      | Some c => popcount_bytes nb' (S l) x (wrap 8 (acc + c))
      | None => None
      end
  end.
Definition popcount (nb : nat) (x : N) : option N := popcount_bytes nb 0 x 0.

(** math.hpp:688-694 [popcount] of an array of [nb]-byte words, accumulated in a [w]-bit Tout *)
Fixpoint popcount_arr (w : N) (nb : nat) (xs : list N) (acc : N) : option N :=
  match xs with
  | [] => Some acc
  | x :: r => match popcount nb x with
              | Some c => popcount_arr w nb r (wrap w (acc + c))
              | None => None
              end
  end.

(** math.hpp:703-707 [hdist] on scalars *)
Definition hdist (nb : nat) (a b : N) : option N := popcount nb (N.lxor a b).

(** math.hpp:710-717 [hdist] on arrays (default Tout is uint8_t, [w]=8) *)
Fixpoint hdist_arr (w : N) (nb : nat) (xs ys : list N) (acc : N) : option N :=
  match xs, ys with
  | x :: r, y :: s => match popcount nb (N.lxor x y) with
                      | Some c => hdist_arr w nb r s (wrap w (acc + c))
                      | None => None
                      end
  | _, _ => Some acc
  end.

(** math.hpp:738-740 [gdist]: L1 distance of the two popcounts *)
Definition gdist (nb : nat) (a b : N) : option N :=
  match popcount nb a, popcount nb b with
  | Some p, Some q => Some (if p <? q then q - p else p - q)
  | _, _ => None
  end.

(** math.hpp:974-978 [extend_bits] on an unsigned type of [w] bits; [nValue<<k] is reduced to [w] bits
    (types narrower than int are promoted first and reduced when returned, with the same result) *)
Definition extend_bits (w v o e : N) : N :=
  wrap w (N.lor (N.shiftl v (e - o)) (N.shiftr v (o - (e - o)))).

(** math.hpp:987-992 [expand_bits<k>] on a type of [w] bits, called with index [n].
    [1<<n] and [bool<<(n*k)] are int shifts: a shift amount of 32 or more is undefined ([None]);
    a result bit 31 or below converts to T and is reduced to [w] bits. *)
Fixpoint expand_bits_from (w k v : N) (n : nat) : option N :=
  let nn := N.of_nat n in
  if (31 <? nn) || (31 <? nn * k) then None
  else
    let bit := if N.land v (N.shiftl 1 nn) =? 0 then 0 else N.shiftl 1 (nn * k) in
    match n with
    | O => Some (wrap w bit)
    | S n' => match expand_bits_from w k v n' with
              | Some r => Some (wrap w (wrap w bit + r))
              | None => None
              end
    end.
(** math.hpp:981-992 both specialisations; the default index is (8*sizeof(T))/k - 1 *)
Definition expand_bits (w k v : N) : option N :=
  if k =? 1 then Some v else expand_bits_from w k v (N.to_nat (w / k - 1)).
