(** Uniform grids on an interval, written without reference to the table construction. *)
From Coq Require Import ZArith QArith.
Open Scope Q_scope.
(** k-th of [bins] equally spaced points from [mn] (k=0) to [mx] (k=bins-1) *)
Definition grid (mn mx : Q) (bins k : Z) : Q := mn + inject_Z k * ((mx - mn) / inject_Z (bins - 1)).
Definition gap (mn mx : Q) (bins : Z) : Q := (mx - mn) / inject_Z (bins - 1).
Definition respects_eq {T} (f : Q -> T) : Prop := forall x y, x == y -> f x = f y.
