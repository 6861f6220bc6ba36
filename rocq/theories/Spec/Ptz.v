(* A pinhole camera that looks along a direction of the sphere, kept upright. *)
From Coq Require Import ZArith Reals.
Open Scope R_scope.

Definition deg (d : R) : R := d * PI / 180.
Definition vector : Type := R * R * R.
(* where the camera looks, what is right and what is up for it *)
Definition forward (h v : R) : vector := (sin (deg v) * cos (deg h), sin (deg v) * sin (deg h), cos (deg v)).
Definition right (h v : R) : vector := (sin (deg h), - cos (deg h), 0).
Definition up (h v : R) : vector := (- cos (deg v) * cos (deg h), - cos (deg v) * sin (deg h), sin (deg v)).
Definition plus (a b : vector) : vector := (fst (fst a) + fst (fst b), snd (fst a) + snd (fst b), snd a + snd b).
Definition scale (k : R) (a : vector) : vector := (k * fst (fst a), k * snd (fst a), k * snd a).
Definition inner (a b : vector) : R := fst (fst a) * fst (fst b) + snd (fst a) * snd (fst b) + snd a * snd b.
(* in a view of w x h pixels with the vertical field of view f, the direction t is seen at (x, y), rows being counted from the top *)
Definition seen_at (w h : Z) (f hori verti : R) (t : vector) (x y : R) : Prop :=
  exists k, 0 < k /\ t = scale k (plus (scale (IZR h / 2 / tan (deg f / 2)) (forward hori verti))
    (plus (scale (x - IZR w / 2) (right hori verti)) (scale (IZR h / 2 - y) (up hori verti)))).
(* rounding halves up *)
Definition nearest (r : R) (n : Z) : Prop := IZR n - 1 / 2 <= r < IZR n + 1 / 2.
