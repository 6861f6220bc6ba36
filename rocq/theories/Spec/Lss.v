(* What a local self-similarity descriptor tells: each bin holds how well the patch of a pixel recurs somewhere in the part of its neighbourhood that belongs to the bin. *)
From Coq Require Import ZArith Reals List Bool.
From Verif Require Import Lib.Grid Model.Lss.
Import ListNotations.
Open Scope Z_scope.

(* squared differences of the patch around (r,c) and the one displaced by (dy,dx), over all channels *)
Definition cost (im : image) (half r c dy dx : Z) : Z :=
  fold_right Z.add 0 (map (fun q => (px im (snd q) (r + fst (fst q)) (c + snd (fst q)) - px im (snd q) (r + dy + fst (fst q)) (c + dx + snd (fst q))) ^ 2)
    (list_prod (grid (- half) (2 * half + 1) (- half) (2 * half + 1)) (zrange 0 (chans im)))).
(* the displacement (dy,dx) belongs to the bin b *)
Definition covers (cf : config) (b dy dx : Z) : Prop :=
  Z.abs dy <= outer cf /\ Z.abs dx <= outer cf /\
  nth_error (lut cf) (Z.to_nat ((dy + outer cf) * (2 * outer cf + 1) + (dx + outer cf))) = Some (Some b).
Definition least (P : Z -> Prop) (m : Z) : Prop := P m /\ forall v, P v -> m <= v.
(* a configuration that the constructor accepts, with a proper lookup map (see C30) *)
Definition good (cf : config) : Prop :=
  (0 < patch cf /\ patch cf mod 2 = 1 /\ patch cf <= outer cf /\ 0 < bins cf) /\ (0 < noise cf)%R /\
  length (lut cf) = Z.to_nat ((2 * outer cf + 1) * (2 * outer cf + 1)) /\ 0 <= first cf /\
  forall i b, nth_error (lut cf) i = Some (Some b) -> 0 <= b < bins cf /\ first cf <= Z.of_nat i <= last cf.
(* the window around the pixel lies in the image *)
Definition inner (cf : config) (im : image) (r c : Z) : Prop :=
  let h := outer cf + patch cf / 2 in h <= r < rows im - h /\ h <= c < cols im - h.
Definition large (cf : config) (im : image) : Prop :=
  (chans im = 1 \/ chans im = 3) /\ 2 * outer cf + patch cf <= rows im /\ 2 * outer cf + patch cf <= cols im.

(* the bin b of the pixel (r,c) before normalization *)
Definition tells (cf : config) (im : image) (r c b : Z) (v : R) : Prop :=
  (exists m, least (fun m => exists dy dx, covers cf b dy dx /\ m = cost im (patch cf / 2) r c dy dx) m /\ v = exp (- (IZR m / noise cf))) \/
  ((forall dy dx, ~ covers cf b dy dx) /\ v = exp (- (float_max / noise cf))).

Open Scope R_scope.
Definition norm (n : Z) (d : Z -> R) : R := sqrt (fold_right Rplus 0 (map (fun k => d k ^ 2) (zrange 0 n))).
(* what is stored for a descriptor d *)
Definition stored (cf : config) (d e : Z -> R) : Prop :=
  if normalizing cf then
    (/ 10 ^ 6 < norm (bins cf) d /\ forall b, (0 <= b < bins cf)%Z -> e b = d b / norm (bins cf) d) \/
    (norm (bins cf) d <= / 10 ^ 6 /\ forall b, (0 <= b < bins cf)%Z -> e b = sqrt (1 / IZR (bins cf)))
  else forall b, (0 <= b < bins cf)%Z -> e b = d b.
(* the descriptor of the pixel (r,c) in a map; of the i-th keypoint in a list *)
Definition at_pixel (cf : config) (im : image) (m : memory) (r c : Z) (e : Z -> R) : Prop :=
  forall b, (0 <= b < bins cf)%Z -> m (((r * cols im + c) * bins cf) + b)%Z = Some (e b).
Definition at_row (cf : config) (m : memory) (i : Z) (e : Z -> R) : Prop :=
  forall b, (0 <= b < bins cf)%Z -> m (i * bins cf + b)%Z = Some (e b).
(* the descriptor that belongs to the pixel (r,c) *)
Definition describes (cf : config) (im : image) (r c : Z) (e : Z -> R) : Prop :=
  exists d, stored cf d e /\ forall b, (0 <= b < bins cf)%Z -> tells cf im r c b (d b).
