(** find_nn_index, interp1 and linspace of modules/utils/include/litiv/utils/math.hpp over exact rationals
    (rounding of float/double instantiations is not modelled). *)
From Coq Require Import QArith Qabs List Bool.
Import ListNotations.
Open Scope Q_scope.

Definition Qltb (a b : Q) : bool := negb (Qle_bool b a).

(** math.hpp:895-909 [find_nn_index]; the loop state is (nIdx, oMinDist), [None] stands for size_t(-1)
    (vector sizes are below 2^64-1, so no index equals the sentinel); oMinDist is only read once nIdx is set *)
Fixpoint nn_loop {V} (dist : V -> V -> Q) (req : V) (vals : list V) (n : nat) (st : option (nat * Q)) : option (nat * Q) :=
  match vals with
  | [] => st
  | v :: r =>
      let d := dist req v in
      let st' := match st with
                 | None => Some (n, d)
                 | Some (i, m) => if Qltb d m then Some (n, d) else Some (i, m)
                 end in
      nn_loop dist req r (S n) st'
  end.
Definition find_nn_index {V} (dist : V -> V -> Q) (req : V) (vals : list V) : option nat :=
  match nn_loop dist req vals 0 None with Some (i, _) => Some i | None => None end.

Inductive outcome (A : Type) : Type := Ok (a : A) | Throw | UB.
Arguments Ok {A}. Arguments Throw {A}. Arguments UB {A}.

(** math.hpp:919-934 slopes and offsets: [tSlope] is carried over to the last knot; [n] knots remain *)
Fixpoint slopes (n : nat) (xs ys : list Q) (t : Q) : list (Q * Q) :=
  match n, xs, ys with
  | S n', x :: xr, y :: yr =>
      let t' := match n', xr, yr with
                | S _, x2 :: _, y2 :: _ => (y2 - y) / (x2 - x)
                | _, _, _ => t
                end in
      (t', y - t' * x) :: slopes n' xr yr t'
  | _, _, _ => []
  end.

Definition L1q (a b : Q) : Q := Qabs (a - b).

(** math.hpp:935-944 one request: the nearest knot is searched in the whole vX, the line of that knot is evaluated;
    indexing vSlope past nSize is out of bounds ([UB]) *)
Definition interp_one (xs : list Q) (sl : list (Q * Q)) (req : Q) : outcome Q :=
  match xs with
  | [] => UB
  | x0 :: _ =>
      if Qle_bool x0 req && Qle_bool req (last xs 0) then
        match find_nn_index L1q req xs with
        | Some i => match nth_error sl i with Some (s, o) => Ok (s * req + o) | None => UB end
        | None => UB
        end
      else Throw
  end.
Fixpoint interp_all (xs : list Q) (sl : list (Q * Q)) (reqs : list Q) : outcome (list Q) :=
  match reqs with
  | [] => Ok []
  | r :: rs => match interp_one xs sl r with
               | Ok y => match interp_all xs sl rs with Ok ys => Ok (y :: ys) | Throw => Throw | UB => UB end
               | Throw => Throw
               | UB => UB
               end
  end.
(** math.hpp:913-945 [interp1] *)
Definition interp1 (xs ys reqs : list Q) : outcome (list Q) :=
  let n := Nat.min (length ys) (length xs) in
  match n with
  | O => Ok []
  | _ => interp_all xs (slopes n xs ys 0) reqs
  end.

(** math.hpp:949-963 [linspace] *)
Definition linspace (a b : Q) (n : nat) (incl : bool) : list Q :=
  match n with
  | O => []
  | S O => [b]
  | _ =>
      let step := (b - a) / inject_Z (Z.of_nat (if incl then n - 1 else n)) in
      if incl then map (fun i => a + step * inject_Z (Z.of_nat i)) (seq 0 n)
      else map (fun i => a + step * inject_Z (Z.of_nat i)) (seq 1 n)
  end.
