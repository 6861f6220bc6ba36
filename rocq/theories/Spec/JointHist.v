(** Histograms as occurrence counts. *)
From Coq Require Import ZArith List.
Import ListNotations.
Open Scope Z_scope.

(** number of elements of the inputs that satisfy a predicate *)
Definition occurrences {A} (p : A -> bool) (l : list A) : Z := Z.of_nat (length (filter p l)).

(** quantised value *)
Definition quantised (step mn v : Z) : Z := (v - mn) / step.

(** bin k holds the values v with mn + k*step <= v < mn + (k+1)*step *)
Definition in_bin (step mn k v : Z) : Prop := mn + k * step <= v < mn + (k + 1) * step.

Definition zsum (l : list Z) : Z := fold_right Z.add 0 l.

Fixpoint zip {A B C} (f : A -> B -> C) (a : list A) (b : list B) : list C :=
  match a, b with x :: a', y :: b' => f x y :: zip f a' b' | _, _ => [] end.

(** bins of element e in all inputs, given the lower ends of the ranges *)
Definition bins (step : Z) (mins : list Z) (imgs : list (list Z)) (e : nat) : list Z :=
  zip (fun mn img => quantised step mn (nth e img 0)) mins imgs.

(** a declared range covers the values and is narrow enough for int indices; without one the values themselves must be *)
Definition range_ok (skip : option (Z * Z)) (img : list Z) : Prop :=
  match skip with
  | Some (a, b) => Forall (fun v => a <= v <= b) img /\ b - a < 2^31 - 2
  | None => forall v w, In v img -> In w img -> v - w < 2^31 - 2
  end.
Definition inputs_ok (step : Z) (skips : list (option (Z * Z))) (imgs : list (list Z)) (n : nat) : Prop :=
  1 <= step < 2^31 /\ imgs <> [] /\ (0 < n)%nat /\ Forall (fun img => length img = n) imgs /\ Forall2 range_ok skips imgs.

(** lower ends: the declared one, or the least value *)
Definition lower_end (skip : option (Z * Z)) (img : list Z) (mn : Z) : Prop :=
  match skip with Some (a, _) => mn = a | None => In mn img /\ Forall (fun v => mn <= v) img end.
