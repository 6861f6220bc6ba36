(** lv::MatSize_<Tinteger>, modules/utils/include/litiv/utils/opencv.hpp:318-562. The stored vector is [dims; s0; s1; ...]; as every
    constructor fills its first entry with the number of sizes, an object is modelled by the list of its sizes (values of Tinteger).
    Simplified: dimension counts are assumed representable in Tinteger. *)
From Coq Require Import ZArith List Bool.
Import ListNotations.
Open Scope Z_scope.

(** an integral C++ type: width and signedness; conversions wrap *)
Record ity := Ity { bits : Z; sgn : bool }.
Definition cast (t : ity) (x : Z) : Z :=
  let y := x mod 2 ^ bits t in if sgn t then (if y <? 2 ^ (bits t - 1) then y else y - 2 ^ bits t) else y.
Definition T_int := Ity 32 true.
Definition T_size_t := Ity 64 false.
Definition T_u8 := Ity 8 false.
Definition in_range (t : ity) (x : Z) : Prop := if sgn t then - 2 ^ (bits t - 1) <= x < 2 ^ (bits t - 1) else 0 <= x < 2 ^ bits t.

Definition msize := list Z.

(** opencv.hpp:355-361 explicit sizes: every argument is converted first, then asserted non-negative *)
Definition mk_explicit (t : ity) (args : list Z) : option msize :=
  let l := map (cast t) args in if forallb (fun x => 0 <=? x) l then Some l else None.
(** opencv.hpp:533-556 cvtSizes: the check is on the value converted to int *)
Definition cvtSizes (t : ity) (sizes : list Z) : option msize :=
  if forallb (fun x => 0 <=? cast T_int x) sizes then Some (map (cast t) sizes) else None.
(** opencv.hpp:327-330 from cv::Size (width, height) *)
Definition of_cvsize (t : ity) (s : Z * Z) : option msize :=
  if (0 <=? fst s) && (0 <=? snd s) then Some [cast t (snd s); cast t (fst s)] else None.
(** opencv.hpp:511-518 total, accumulated in size_t *)
Definition total (m : msize) : Z :=
  match m with
  | [] => 0
  | a :: r => fold_left (fun acc s => (acc * cast T_size_t s) mod 2 ^ 64) r (cast T_size_t a)
  end.
(** opencv.hpp:525-527 *)
Definition empty (m : msize) : bool := total m =? 0.
(** the comparison loop, opencv.hpp:475-478 *)
Fixpoint eq_loop (t : ity) (a b : msize) : bool :=
  match a, b with
  | [], _ => true
  | x :: a', y :: b' => if x =? cast t y then eq_loop t a' b' else false
  | _, _ => false
  end.
(** opencv.hpp:466-479 operator== with another MatSize_; t is the left operand's integer type *)
Definition eqb (t : ity) (a b : msize) : bool :=
  if empty a && empty b then true
  else if negb (Nat.eqb (length a) (length b)) then false
  else if Nat.eqb (length a) 2 then (nth 0 a 0 =? cast t (nth 0 b 0)) && (nth 1 a 0 =? cast t (nth 1 b 0))
  else eq_loop t a b.
(** opencv.hpp:520-523 transpose *)
Definition transpose (t : ity) (a : msize) : option msize :=
  match a with [r; c] => mk_explicit t [c; r] | _ => None end.
(** opencv.hpp:437-440 operator cv::Size, as (width,height) *)
Definition to_cvsize (a : msize) : option (Z * Z) :=
  match a with
  | [] => Some (0, 0)
  | [w] => Some (cast T_int w, 1)
  | [r; c] => Some (cast T_int c, cast T_int r)
  | _ => None
  end.
(** opencv.hpp:442-444 operator==(cv::Size) *)
Definition eq_cvsize (a : msize) (s : Z * Z) : bool :=
  match to_cvsize a with Some (w, h) => (w =? fst s) && (h =? snd s) | None => false end.
