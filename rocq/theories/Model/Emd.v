(* Earth mover's distances of normalized vectors, modules/utils/include/litiv/utils/math.hpp lines 811-844. Floating point numbers are exact rationals;
   the assertions of debug builds (normalized, same size) are not made. *)
From Coq Require Import ZArith QArith Qabs List Bool.
Import ListNotations.
Open Scope Q_scope.

(* cumulativeSum, cxx.hpp:315-321: std::partial_sum *)
Fixpoint partial (acc : Q) (l : list Q) : list Q := match l with [] => [] | x :: r => (acc + x) :: partial (acc + x) r end.
Definition cumulativeSum (l : list Q) : list Q := match l with [] => [] | x :: r => x :: partial x r end.

(* lines 811-822 with L1dist<1>, lines 255-270; None: vArr2 is read past its end *)
Definition EMDL1dist (a b : list Q) : option Q :=
  if (length b <? length a)%nat then None
  else Some (fold_left (fun t xy => t + Qabs (fst xy - snd xy)) (combine (cumulativeSum a) (cumulativeSum b)) 0).

(* lines 832-836: the cumulative sums of the differences, without the leading 0 *)
Fixpoint differences (acc : Q) (a b : list Q) : list Q :=
  match a, b with x :: a', y :: b' => (acc + (x - y)) :: differences (acc + (x - y)) a' b' | _, _ => [] end.
(* std::nth_element, by contract: afterwards the element is the one of the sorted sequence; the order of the others is left open and
   does not change their sum *)
Fixpoint insert (x : Q) (l : list Q) : list Q := match l with [] => [x] | y :: r => if Qle_bool x y then x :: l else y :: insert x r end.
Definition sort (l : list Q) : list Q := fold_right insert [] l.
(* lines 824-844; None: vArr2 is read past its end, or the median of nothing is read past the end of vCumSumDiffs *)
Definition CEMDL1dist (a b : list Q) : option Q :=
  if (length b <? length a)%nat then None
  else
    let d := sort (differences 0 a b) in
    match nth_error d (length a / 2) with
    | None => None
    | Some median => Some (fold_left (fun t x => t + Qabs (x - median)) d 0)
    end.
