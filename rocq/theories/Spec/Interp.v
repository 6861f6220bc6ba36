(** Nearest neighbours, piecewise linear interpolation and evenly spaced points. *)
From Coq Require Import QArith List.
Import ListNotations.
Open Scope Q_scope.

(** [i] is the first index minimising the distance to [req] *)
Definition first_nearest {V} (dist : V -> V -> Q) (req : V) (vals : list V) (i : nat) : Prop :=
  exists v, nth_error vals i = Some v /\
    (forall j w, nth_error vals j = Some w -> dist req v <= dist req w) /\
    (forall j w, (j < i)%nat -> nth_error vals j = Some w -> dist req v < dist req w).

(** strictly increasing knots *)
Fixpoint increasing (xs : list Q) : Prop :=
  match xs with
  | x :: ((y :: _) as r) => x < y /\ increasing r
  | _ => True
  end.

(** value at [q] of the linear function through (x0,y0) and (x1,y1) *)
Definition on_line (x0 y0 x1 y1 q r : Q) : Prop := (r - y0) * (x1 - x0) == (y1 - y0) * (q - x0).

(** [r] is the piecewise linear interpolation of the knots at [q]: [q] lies in segment i and [r] is on its chord *)
Definition interpolates (xs ys : list Q) (q r : Q) : Prop :=
  exists i x0 x1 y0 y1, nth_error xs i = Some x0 /\ nth_error xs (S i) = Some x1 /\
    nth_error ys i = Some y0 /\ nth_error ys (S i) = Some y1 /\ x0 <= q <= x1 /\ on_line x0 y0 x1 y1 q r.
