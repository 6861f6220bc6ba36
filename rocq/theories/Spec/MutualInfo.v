(** Mutual information of two label sequences, as the average over the elements of log2( P(a,b) / (P(a) P(b)) ). *)
From Coq Require Import ZArith List Reals.
Import ListNotations.
Open Scope R_scope.

Definition freq {A} (p : A -> bool) (l : list A) : Z := Z.of_nat (length (filter p l)).
(** occurrences of a first label, a second label, a pair, in a list of pairs *)
Definition n1 (K : list (Z * Z)) (a : Z) : Z := freq (fun k => (fst k =? a)%Z) K.
Definition n2 (K : list (Z * Z)) (b : Z) : Z := freq (fun k => (snd k =? b)%Z) K.
Definition n12 (K : list (Z * Z)) (a b : Z) : Z := freq (fun k => (fst k =? a)%Z && (snd k =? b)%Z)%bool K.

Definition lg (x : R) : R := ln x / ln 2.
Definition total (l : list R) : R := fold_right Rplus 0 l.
Definition mean (l : list R) : R := total l / INR (length l).

Definition information (K : list (Z * Z)) : R :=
  mean (map (fun '(a, b) => lg ((IZR (n12 K a b) * INR (length K)) / (IZR (n1 K a) * IZR (n2 K b)))) K).
Definition entropy1 (K : list (Z * Z)) : R := mean (map (fun '(a, _) => - lg (IZR (n1 K a) / INR (length K))) K).
Definition entropy2 (K : list (Z * Z)) : R := mean (map (fun '(_, b) => - lg (IZR (n2 K b) / INR (length K))) K).

Definition independent (K : list (Z * Z)) : Prop := forall a b, (Z.of_nat (length K) * n12 K a b = n1 K a * n2 K b)%Z.

(** the labels of two images: values quantised from the lower end of their range *)
Definition labels (step mn1 mn2 : Z) (img1 img2 : list Z) : list (Z * Z) :=
  map (fun p => ((fst p - mn1) / step, (snd p - mn2) / step))%Z (combine img1 img2).
