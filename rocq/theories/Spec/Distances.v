(** Exact distances over the integers. *)
From Coq Require Import ZArith List.
Import ListNotations.
Open Scope Z_scope.

Fixpoint sum_abs_diff (xs ys : list Z) : Z :=
  match xs, ys with x :: r, y :: s => Z.abs (x - y) + sum_abs_diff r s | _, _ => 0 end.
Fixpoint sum_sqr_diff (xs ys : list Z) : Z :=
  match xs, ys with x :: r, y :: s => (x - y) ^ 2 + sum_sqr_diff r s | _, _ => 0 end.
Fixpoint dot (xs ys : list Z) : Z :=
  match xs, ys with x :: r, y :: s => x * y + dot r s | _, _ => 0 end.
Definition norm2 (xs : list Z) : Z := dot xs xs.

(** values of a [w]-bit unsigned or signed type *)
Definition in_u (w x : Z) : Prop := 0 <= x < 2 ^ w.
Definition in_s (w x : Z) : Prop := - 2 ^ (w - 1) <= x < 2 ^ (w - 1).
Definition same_type (w a b : Z) : Prop := (in_u w a /\ in_u w b) \/ (in_s w a /\ in_s w b).

(** every channel of the pixel has the same value *)
Definition grey (xs : list Z) : Prop := exists g, Forall (fun x => x = g) xs.

(** total over the elements selected by a mask *)
Fixpoint masked_sum (xs ys : list (list Z)) (m : list Z) : Z :=
  match xs, ys, m with
  | x :: r, y :: s, k :: ks => (if k =? 0 then 0 else sum_abs_diff x y) + masked_sum r s ks
  | _, _, _ => 0
  end.

(** the integer widths for which the library instantiates its distances *)
Definition width (w : Z) : Prop := w = 8 \/ w = 16 \/ w = 32.

(** [X] is the squared distance of [xs] from the line spanned by [ys], |xs|^2 - (xs.ys)^2/|ys|^2, rounded up
    (with |ys|^2 replaced by 1 when it is 0) *)
Definition residual_ceil (xs ys : list Z) (X : Z) : Prop :=
  let b := Z.max (norm2 ys) 1 in
  let q := norm2 xs * b - dot xs ys * dot xs ys in (X - 1) * b < q <= X * b.
