(* Plane motions and grid nodes. *)
From Coq Require Import ZArith QArith List.
From Verif Require Import Model.Warp.
Import ListNotations.
Open Scope Q_scope.

(* a rotation, scaling and translation: (x,y) -> (a x - b y + tx, b x + a y + ty) *)
Record motion := { ma : Q; mb : Q; mtx : Q; mty : Q }.
Definition move_x (t : motion) (x y : Q) : Q := ma t * x - mb t * y + mtx t.
Definition move_y (t : motion) (x y : Q) : Q := mb t * x + ma t * y + mty t.
Definition translation (tx ty : Z) : motion := {| ma := 1; mb := 0; mtx := inject_Z tx; mty := inject_Z ty |}.

(* the source points are the images of the destination points *)
Definition follows (t : motion) (pts : list control) : Prop :=
  forall p, In p pts -> sx p == move_x t (dx p) (dy p) /\ sy p == move_y t (dx p) (dy p).

(* rigid mode keeps lengths *)
Definition fits (m : mode) (t : motion) : Prop :=
  match m with SIMILARITY => True | RIGID => ma t * ma t + mb t * mb t == 1 end.

(* at least two destination points *)
Definition two_points (pts : list control) : Prop :=
  exists p q, In p pts /\ In q pts /\ ~ (dx p == dx q /\ dy p == dy q).

(* columns (rows) where the displacement is computed: multiples of the grid size and the last one *)
Definition node (g size n : Z) : Prop := (0 <= n < size)%Z /\ ((g | n)%Z \/ n = (size - 1)%Z).

(* columns (rows) where the interpolation is exact: multiples of the grid size and those before the last one of them *)
Definition inner (g size n : Z) : Prop := (g | n)%Z \/ (n < (size - 1) / g * g)%Z.

(* the nearest row (column) of an image *)
Definition nearest (v size : Z) : Z := Z.max 0 (Z.min v (size - 1)).
