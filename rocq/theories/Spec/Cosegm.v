(** Regions kept away from the border, and the numbers of their pixels. *)
From Coq Require Import ZArith List.
From Verif Require Import Model.RoiTable Spec.RoiTable Model.Cosegm.
Open Scope Z_scope.

Definition given (g : mask) : Prop := 0 < rows g /\ 0 < cols g.
(** n is the number of positions in an image where v is not zero *)
Definition counted (v : Z * Z -> Z) (h w n : Z) : Prop := exists l, NoDup l /\ (forall p, In p l <-> inside h w p /\ v p <> 0) /\ n = Z.of_nat (length l).
(** m is of size h x w, with the values v away from the border and zero close to it *)
Definition cleaned (b : Z) (v : Z * Z -> Z) (h w : Z) (m : mask) : Prop :=
  rows m = h /\ cols m = w /\ forall p, inside h w p -> (away b h w p -> px m (fst p) (snd p) = v p) /\ (~ away b h w p -> px m (fst p) (snd p) = 0).
Definition at_ (m : mask) (p : Z * Z) : Z := px m (fst p) (snd p).
(** the image is not empty, the region has its size, and a pixel of it is away from the border *)
Definition usable (b : Z) (i : input) : Prop :=
  let '(h, w, g) := i in 0 < h /\ 0 < w /\ (given g -> rows g = h /\ cols g = w) /\ exists p, away b h w p /\ (given g -> at_ g p <> 0).
(** without a region given, all of the image is meant *)
Definition meant (g : mask) (v : Z * Z -> Z) : Prop := (given g /\ v = at_ g) \/ (~ given g /\ v = fun _ => 255).
Definition ready (b : Z) (i : input) (s : slot) : Prop :=
  let '(h, w, g) := i in exists v, meant g v /\ cleaned b v h w (roi s) /\ counted v h w (orig s) /\ counted (at_ (roi s)) h w (final s) /\ total s = h * w.
(** what setROIs asks for *)
Definition settable (b : Z) (m : mask) : Prop := given m /\ (exists p, inside (rows m) (cols m) p /\ at_ m p <> 0) /\ 2 * b <= rows m /\ 2 * b <= cols m.
Definition same (m m' : mask) : Prop := rows m' = rows m /\ cols m' = cols m /\ forall p, inside (rows m) (cols m) p -> at_ m' p = at_ m p.
