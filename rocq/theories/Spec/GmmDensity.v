(* Gaussian densities, and the pixels a mixture is learned from. *)
From Coq Require Import ZArith QArith Reals Qreals List.
From Verif Require Import Model.Gmm Spec.Gmm.
Import ListNotations.

Fixpoint rsum (k : nat) (f : nat -> R) : R := match k with O => 0%R | S j => (rsum j f + f j)%R end.
(* the density at s of the normal distribution of the given mean and covariance, whose inverse is given *)
Definition gaussian (n : nat) (mu : nat -> Q) (sigma precision : nat -> nat -> Q) (s : nat -> Q) : R :=
  (exp (- Q2R (form n precision (fun i => (s i - mu i)%Q)) / 2) / sqrt ((2 * PI) ^ n * Q2R (laplace n sigma)))%R.

(* the labelled pixels of the region whose label names a component *)
Definition labelled (fg : bool) (comps : nat) (img : list pixel) (labels : list Z) : list (nat * vec) :=
  map (fun pa => (Z.to_nat (snd pa), channels (fst pa)))
    (filter (fun pa => in_roi (fst pa) && ((0 <=? snd pa)%Z && (snd pa <? Z.of_nat comps)%Z) && Bool.eqb (foreground (fst pa)) fg) (combine img labels)).
