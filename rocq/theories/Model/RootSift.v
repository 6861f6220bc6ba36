(* rootSIFT and sparseness, modules/utils/include/litiv/utils/math.hpp lines 846-897, over the real numbers; None: NaN or an infinity in the result, or a failed lvAssert_.
   Integer element types of rootSIFT, which nothing rejects, are modelled by truncation. *)
From Coq Require Import ZArith Reals List Bool.
Import ListNotations.
Open Scope R_scope.

(* DBL_EPSILON *)
Definition eps : R := / 4503599627370496.
(* lines 852-855 *)
Definition l1 (neg : bool) (v : list R) : R := fold_left (fun s x => s + (if neg then Rabs x else x)) v 0 + eps.
(* lines 856-867: std::sqrt of a negative number is NaN; a quotient by 0 is infinite or NaN *)
Definition root (neg : bool) (norm x : R) : option R :=
  if Req_EM_T norm 0 then None
  else if neg && (if Rlt_dec x 0 then true else false) then Some (- sqrt (- x / norm))
  else if Rlt_dec (x / norm) 0 then None else Some (sqrt (x / norm)).
Fixpoint all_some (l : list (option R)) : option (list R) :=
  match l with
  | [] => Some []
  | None :: _ => None
  | Some x :: r => match all_some r with None => None | Some y => Some (x :: y) end
  end.
(* lines 868-875 *)
Definition l2 (v : list R) : R := sqrt (fold_left (fun s x => s + x * x) v 0) + eps.
Definition rootSIFT (use_l2 neg : bool) (v : list R) : option (list R) :=
  match all_some (map (root neg (l1 neg v)) v) with
  | None => None
  | Some w => Some (if use_l2 then map (fun x => x / l2 w) w else w)
  end.
(* the first two steps for an integer TVal: (TVal) truncates *)
Definition truncated (r : R) : Z := if Rle_dec 0 r then Int_part r else (- Int_part (- r))%Z.
Definition rootSIFT_int (v : list Z) : option (list Z) :=
  match all_some (map (root false (l1 false (map IZR v))) (map IZR v)) with None => None | Some w => Some (map truncated w) end.

(* lines 881-890; cv::norm by its documentation. None: the size is refused (line 884), or 0/0 *)
Definition norm1 (v : list R) : R := fold_left (fun s x => s + Rabs x) v 0.
Definition norm2 (v : list R) : R := sqrt (fold_left (fun s x => s + x * x) v 0).
Definition sparseness (v : list R) : option R :=
  if (length v <=? 1)%nat then None
  else if Req_EM_T (norm2 v) 0 then None
  else Some ((sqrt (INR (length v)) - norm1 v / norm2 v) / (sqrt (INR (length v)) - 1)).
