(** Vector helpers of modules/utils/include/litiv/utils/cxx.hpp:234-400. *)
From Coq Require Import List ZArith Arith Bool Permutation Sorted.
Import ListNotations.

Section Generic.
Context {A : Type} (eqb : A -> A -> bool).

(** std::find, as the distance from begin (the length when absent) *)
Fixpoint std_find (l : list A) (v : A) : nat :=
  match l with [] => 0 | x :: r => if eqb x v then 0 else S (std_find r v) end.

(** cxx.hpp:291-297 [filter_out] *)
Definition filter_out (vals tokens : list A) : list A :=
  filter (fun v => std_find tokens v =? length tokens) vals.
(** cxx.hpp:299-305 [filter_in] *)
Definition filter_in (vals tokens : list A) : list A :=
  filter (fun v => negb (std_find tokens v =? length tokens)) vals.
(** cxx.hpp:325-335 [indices_of] *)
Definition indices_of (vals refs : list A) : list nat :=
  match refs with
  | [] => map (fun _ => 1) vals
  | _ => map (std_find refs) vals
  end.

(** std::unique: keeps the first element of every run of equivalent elements *)
Fixpoint std_unique_from (prev : A) (l : list A) : list A :=
  match l with [] => [] | x :: r => if eqb prev x then std_unique_from prev r else x :: std_unique_from x r end.
Definition std_unique (l : list A) : list A := match l with [] => [] | x :: r => x :: std_unique_from x r end.
End Generic.

(** std::sort is only known through its contract: some permutation without an inverted pair ([lt] strict weak order) *)
Definition std_sort_result {A} (lt : A -> A -> bool) (input output : list A) : Prop :=
  Permutation input output /\ StronglySorted (fun a b => lt b a = false) output.

(** cxx.hpp:338-346 [sort_indices]: any result std::sort may give for iota with the value comparison *)
Definition sort_indices_result (vals : list Z) (idx : list nat) : Prop :=
  std_sort_result (fun i j => (nth i vals 0 <? nth j vals 0)%Z) (seq 0 (length vals)) idx.
(** cxx.hpp:360-367 [unique_indices] applied to such a result *)
Definition unique_indices_of (vals : list Z) (sorted : list nat) : list nat :=
  std_unique (fun i j => (nth i vals 0 =? nth j vals 0)%Z) sorted.

(** cxx.hpp:377-382 [unique]: insertion into a std::set, then in-order traversal *)
Fixpoint set_insert (v : Z) (s : list Z) : list Z :=
  match s with
  | [] => [v]
  | x :: r => if (v <? x)%Z then v :: s else if (x <? v)%Z then x :: set_insert v r else s
  end.
Definition unique (l : list Z) : list Z := fold_left (fun s v => set_insert v s) l [].

Inductive res (T : Type) : Type := Ret (v : T) | Thrown | Undef.
Arguments Ret {T}. Arguments Thrown {T}. Arguments Undef {T}.

Open Scope Z_scope.
Definition int_range (v : Z) : bool := (- 2 ^ 31 <=? v) && (v <? 2 ^ 31).

(** std::iota over n elements of type int: the value is incremented after every store, also after the last *)
Fixpoint iota_int (n : nat) (v : Z) : res (list Z) :=
  match n with
  | O => Ret []
  | S k => if int_range (v + 1) then match iota_int k (v + 1) with Ret l => Ret (v :: l) | r => r end else Undef
  end.
(** cxx.hpp:396-398 the stepped version: the value is incremented before every store except the first *)
Fixpoint gen_int (n : nat) (v step : Z) : res (list Z) :=
  match n with
  | O => Ret []
  | S k => if int_range (v + step) then match gen_int k (v + step) step with Ret l => Ret (v + step :: l) | r => r end else Undef
  end.
(** cxx.hpp:385-400 [make_range<int>]; [b-a] is an int subtraction; the modulus is computed on size_t, where a positive step
    is unchanged *)
Definition make_range (a b step : Z) : res (list Z) :=
  if b <? a then Ret [] else
  if negb (int_range (b - a)) then Undef else
  if step =? 1 then iota_int (Z.to_nat (b - a) + 1) a else
  if negb (0 <? step) then Thrown else
  if negb ((b - a) mod step =? 0) then Thrown else
  match gen_int (Z.to_nat ((b - a) / step)) a step with Ret l => Ret (a :: l) | r => r end.

(** cxx.hpp:316-322 [cumulativeSum]: std::partial_sum keeps its running sum in the INPUT element type (unsigned, w bits);
    each stored value is that sum converted to the output type *)
Fixpoint partial_sum (w : Z) (acc : Z) (l : list Z) : list Z :=
  match l with [] => [] | x :: r => let s := (acc + x) mod 2 ^ w in s :: partial_sum w s r end.
Definition cumulativeSum (w : Z) (l : list Z) : list Z := partial_sum w 0 l.

(** cxx.hpp:236-247 [digit_count] for a signed integer type of w bits (w = 32 or 64): the loop condition looks at
    (int)number, i.e. the low 32 bits; std::abs of INT_MIN is undefined *)
Definition to_int (v : Z) : Z := (v + 2 ^ 31) mod 2 ^ 32 - 2 ^ 31.
Fixpoint digit_loop (fuel : nat) (number digits : Z) : res Z :=
  if to_int number =? - 2 ^ 31 then Undef else
  if Z.abs (to_int number) >=? 10 then
    match fuel with O => Undef | S f => digit_loop f (Z.quot number 10) (digits + 1) end
  else Ret digits.
Definition digit_count (number : Z) : res Z := digit_loop 20 number (if number <? 0 then 2 else 1).
