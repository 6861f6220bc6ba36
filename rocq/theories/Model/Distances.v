(** Integer distances of modules/utils/include/litiv/utils/math.hpp.
    Values are mathematical integers; a signed C++ operation whose exact result leaves its type is
    undefined ([None]); unsigned arithmetic is reduced modulo 2^w. *)
From Coq Require Import ZArith List Bool.
Import ListNotations.
Open Scope Z_scope.

(** result of a signed [w]-bit operation *)
Definition sop (w x : Z) : option Z := if (- 2 ^ (w - 1) <=? x) && (x <? 2 ^ (w - 1)) then Some x else None.
(** conversion to an unsigned [w]-bit type *)
Definition uconv (w x : Z) : Z := x mod 2 ^ w.
(** width in which the arithmetic on the "bigger" signed type is done: 8/16-bit inputs use int, 32-bit inputs use int64
    (cxx.hpp:489-495 get_bigger_integer, integral promotion) *)
Definition arith_width (w : Z) : Z := if w <=? 16 then 32 else 64.

Definition bind {A B} (x : option A) (f : A -> option B) : option B := match x with Some a => f a | None => None end.

(** math.hpp:200-203 [L1dist] on [w]-bit integers (signed or unsigned): the difference and std::abs are
    evaluated in [arith_width w] bits and the result is converted to the unsigned type of the input size *)
Definition L1dist (w a b : Z) : option Z :=
  bind (sop (arith_width w) (a - b)) (fun d =>
  bind (sop (arith_width w) (Z.abs d)) (fun m => Some (uconv w m))).

(** math.hpp:228-234 [L1dist<nChannels,Tin,Tout>]: accumulation in a [wo]-bit unsigned Tout *)
Fixpoint L1dist_arr (w wo : Z) (xs ys : list Z) (acc : Z) : option Z :=
  match xs, ys with
  | x :: r, y :: s => bind (L1dist w x y) (fun d => L1dist_arr w wo r s (uconv wo (acc + uconv wo d)))
  | _, _ => Some acc
  end.

(** math.hpp:255-269 [L1dist<nChannels>(a,b,nElements,m)] with size_t output: elements are channel lists,
    [m] an optional mask with one byte per element *)
Fixpoint L1dist_masked (w : Z) (xs ys : list (list Z)) (m : option (list Z)) (acc : Z) : option Z :=
  match xs, ys with
  | x :: r, y :: s =>
      let '(take, rest) := match m with
                           | None => (true, None)
                           | Some (k :: ks) => (negb (k =? 0), Some ks)
                           | Some [] => (false, Some [])
                           end in
      if take then bind (L1dist_arr w 64 x y 0) (fun d => L1dist_masked w r s rest (uconv 64 (acc + d)))
      else L1dist_masked w r s rest acc
  | _, _ => Some acc
  end.

(** math.hpp:302-307 [L2sqrdist]: the difference is stored in the signed type of 2w bits, the product
    evaluated in [arith_width w] bits, the result converted to the unsigned type of 2w bits *)
Definition L2sqrdist (w a b : Z) : option Z :=
  bind (sop (arith_width w) (a - b)) (fun d =>
  bind (sop (arith_width w) (d * d)) (fun m => Some (uconv (2 * w) m))).

(** math.hpp:317-323 [L2sqrdist<nChannels>]; Tout of [wo] bits (default: 2w) *)
Fixpoint L2sqrdist_arr (w wo : Z) (xs ys : list Z) (acc : Z) : option Z :=
  match xs, ys with
  | x :: r, y :: s => bind (L2sqrdist w x y) (fun d => L2sqrdist_arr w wo r s (uconv wo (acc + uconv wo d)))
  | _, _ => Some acc
  end.

(** math.hpp:391-397 the value under the square root of the integer [L2dist<nChannels>]: its accumulator
    has the result type of the scalar squared distance, 2w bits *)
Definition L2dist_radicand (w : Z) (xs ys : list Z) : option Z := L2sqrdist_arr w (2 * w) xs ys 0.

(** math.hpp:475-496 [cdist] on unsigned w-bit integers *)
Fixpoint non_const (p : Z) (q : Z) (xs ys : list Z) : bool :=
  match xs, ys with
  | x :: r, y :: s => (negb (x =? p) || negb (y =? q)) || non_const x y r s
  | _, _ => false
  end.
Fixpoint non_null (xs ys : list Z) : bool :=
  match xs, ys with
  | x :: r, y :: s => negb (x =? y) || non_null r s
  | _, _ => false
  end.
(** the three uint64_t sums; the products of promoted operands are int operations (int64 for 32-bit) *)
Fixpoint cdist_sums (w : Z) (xs ys : list Z) (c b m : Z) : option (Z * Z * Z) :=
  match xs, ys with
  | x :: r, y :: s =>
      bind (sop (arith_width w) (x * x)) (fun xx =>
      bind (sop (arith_width w) (y * y)) (fun yy =>
      bind (sop (arith_width w) (x * y)) (fun xy =>
        cdist_sums w r s (uconv 64 (c + uconv 64 xx)) (uconv 64 (b + uconv 64 yy)) (uconv 64 (m + uconv 64 xy)))))
  | _, _ => Some (c, b, m)
  end.
(** the value under the square root (uint64_t arithmetic), and its truncated square root; for 8-bit inputs it is below
    2^24, so the float conversion is exact and the truncated float square root is the integer one *)
Definition cdist_radicand (c b m : Z) : Z := uconv 64 (c - uconv 64 (m * m) / Z.max b 1).
Definition cdist (w : Z) (xs ys : list Z) : option Z :=
  match xs, ys with
  | x :: r, y :: s =>
      if negb (non_const x y r s) || negb (non_null xs ys) then Some 0
      else bind (cdist_sums w xs ys 0 0 0) (fun '(c, b, m) => Some (Z.sqrt (cdist_radicand c b m)))
  | _, _ => Some 0
  end.

(** math.hpp:597-600 [cmixdist] of two size_t distances *)
Definition cmixdist (l1 cd : Z) : Z := uconv 64 (l1 / 2 + cd * 4).
(** math.hpp:602-606 [cmixdist] of two 8-bit pixels: the channel sum has the result type of the scalar L1 distance, 8 bits *)
Definition cmixdist_px (xs ys : list Z) : option Z :=
  bind (L1dist_arr 8 8 xs ys 0) (fun l1 => bind (cdist 8 xs ys) (fun cd => Some (cmixdist l1 cd))).
