(** Aligned allocation sizes and lookup tables of modules/utils/include/litiv/utils/cxx.hpp. *)
From Coq Require Import ZArith QArith Qround List.
Import ListNotations.

(** AlignedMemAllocator::allocate, cxx.hpp:664-668: byte count in size_t (64-bit, wrapping) *)
Open Scope Z_scope.
Definition wrap64 (x : Z) : Z := x mod 2^64.
Definition alloc_bytes (n elem align : Z) : Z :=
  let s := wrap64 (n * elem) in
  if s mod align =? 0 then s else wrap64 (s + (align - s mod align)).
(** cxx.hpp:696 max_size *)
Definition max_size (elem align : Z) : Z := (2^64 - 1 - align) / elem.

(** LUT, cxx.hpp:821-949, over exact rationals. [T] is Ty; [cast] is the conversion of a double to Tx (identity for floating Tx,
    truncation for integer Tx). Simplified: rounding of double arithmetic is not modelled. *)
Open Scope Q_scope.
(** ptrdiff_t(double): truncation toward zero *)
Definition qtrunc (x : Q) : Z := if Qle_bool 0 x then Qfloor x else Qceiling x.
(** std::llround: half away from zero *)
Definition qround (x : Q) : Z := if Qle_bool 0 x then Qfloor (x + (1#2)) else Qceiling (x - (1#2)).

Record lut (T : Type) := Lut { l_tab : list T; l_min : Q; l_max : Q; l_mid : Q; l_scale : Q; l_step : Q; l_bins : nat; l_safety : nat }.
Arguments Lut {T}. Arguments l_tab {T}. Arguments l_min {T}. Arguments l_max {T}. Arguments l_mid {T}. Arguments l_scale {T}.
Arguments l_step {T}. Arguments l_bins {T}. Arguments l_safety {T}.

Definition qmin (a b : Q) : Q := if Qle_bool a b then a else b.
Definition qmax (a b : Q) : Q := if Qle_bool a b then b else a.

(** init, cxx.hpp:829-849; None = the assertion on an empty domain *)
Definition lut_init {T} (cast : Q -> Q) (nBins nSafety : nat) (a b : Q) (f : Q -> T) : option (lut T) :=
  if Qeq_bool a b then None else
  let mn := qmin a b in
  let mx := qmax a b in
  let bins1 := inject_Z (Z.of_nat nBins - 1) in
  let step := (mx - mn) / bins1 in
  let entry (n : nat) : T :=
    if Nat.leb n nSafety then f mn
    else if Nat.ltb n (nBins + nSafety - 1) then f (mn + cast (inject_Z (Z.of_nat (n - nSafety)) * step))
    else f mx in
  Some (Lut (map entry (seq 0 (nBins + nSafety * 2))) mn mx (cast ((mx + mn) / (2#1))) (bins1 / (mx - mn)) step nBins nSafety).

(** pointer-relative read; None = outside the buffer *)
Definition peek {T} (l : list T) (i : Z) : option T := if (i <? 0)%Z then None else nth_error l (Z.to_nat i).
Definition low_off {T} (l : lut T) : Z := Z.of_nat (l_safety l).
Definition mid_off {T} (l : lut T) : Z := Z.of_nat (l_bins l / 2 + l_safety l).
(** cxx.hpp:881-885, 887-891, 905-909 *)
Definition eval {T} (l : lut T) (x : Q) : option T := peek (l_tab l) (low_off l + qtrunc ((x - l_min l) * l_scale l)).
Definition eval_round {T} (l : lut T) (x : Q) : option T := peek (l_tab l) (low_off l + qround ((x - l_min l) * l_scale l)).
Definition eval_raw {T} (l : lut T) (i : Z) : option T := peek (l_tab l) (low_off l + i).
(** cxx.hpp:851-855, 857-861 *)
Definition eval_mid {T} (l : lut T) (x : Q) : option T := peek (l_tab l) (mid_off l + qtrunc ((x - l_mid l) * l_scale l)).
Definition eval_mid_round {T} (l : lut T) (x : Q) : option T := peek (l_tab l) (mid_off l + qround ((x - l_mid l) * l_scale l)).
