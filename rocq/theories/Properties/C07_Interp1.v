(** C07: interp1 reproduces the knots but is not piecewise-linear interpolation. *)
From Coq Require Import QArith List Lia Lqa.
From Verif Require Import Model.Interp Spec.Interp Proofs.Interp.
Import ListNotations.
Open Scope Q_scope.

Theorem C07_interp1_passes_through_knots : forall xs ys, increasing xs -> length xs = length ys ->
  exists rs, interp1 xs ys xs = Ok rs /\ Forall2 Qeq rs ys.
Proof. exact interp1_knots. Qed.
Print Assumptions C07_interp1_passes_through_knots.

(** a query at most half way into a segment is interpolated on that segment *)
Theorem C07_interp1_first_half_interpolates : forall xs ys i x x2 y y2 q, increasing xs -> length xs = length ys ->
  nth_error xs i = Some x -> nth_error xs (S i) = Some x2 -> nth_error ys i = Some y -> nth_error ys (S i) = Some y2 ->
  x <= q -> q <= x2 -> q - x <= x2 - q ->
  exists r, interp1 xs ys [q] = Ok [r] /\ on_line x y x2 y2 q r.
Proof. exact interp1_left_nearest. Qed.
Print Assumptions C07_interp1_first_half_interpolates.

(** past the middle, the chord of the FOLLOWING segment, extended backwards, is used *)
Theorem C07_interp1_second_half_extrapolates : forall xs ys i x x2 x3 y2 y3 q, increasing xs -> length xs = length ys ->
  nth_error xs i = Some x -> nth_error xs (S i) = Some x2 -> nth_error xs (S (S i)) = Some x3 ->
  nth_error ys (S i) = Some y2 -> nth_error ys (S (S i)) = Some y3 ->
  x <= q -> q <= x2 -> x2 - q < q - x ->
  exists r, interp1 xs ys [q] = Ok [r] /\ on_line x2 y2 x3 y3 q r.
Proof. exact interp1_right_nearest. Qed.
Print Assumptions C07_interp1_second_half_extrapolates.

(** the documented behaviour fails: knots (0,0) (10,10) (20,0), query 9 *)
Theorem C07_interp1_is_interpolation_refuted :
  exists xs ys q r, increasing xs /\ length xs = length ys /\ interp1 xs ys [q] = Ok [r] /\ ~ interpolates xs ys q r.
Proof. exact interp1_refuted. Qed.
Print Assumptions C07_interp1_is_interpolation_refuted.

(** more abscissae than ordinates ("use min overlap otherwise"): the slope table is indexed out of bounds *)
Theorem C07_interp1_min_overlap_in_bounds_refuted :
  exists xs ys q, increasing xs /\ (length ys < length xs)%nat /\ interp1 xs ys [q] = UB.
Proof. exists [0; 1; 2], [5; 6], 2. repeat split; try reflexivity; simpl; lia. Qed.
Print Assumptions C07_interp1_min_overlap_in_bounds_refuted.

Theorem C07_interp1_rejects_extrapolation : forall x xr ys q, ys <> [] ->
  q < x \/ last (x :: xr) 0 < q -> interp1 (x :: xr) ys [q] = Throw.
Proof. exact interp1_throws. Qed.
Print Assumptions C07_interp1_rejects_extrapolation.

Example C07_ex_hyps : increasing [0; 10; 20] /\ interp1 [0;10;20] [0;10;0] [9] = Ok [(-(10))/(10)*9 + (10 - (-(10))/(10)*10)].
Proof. repeat split. Qed.
