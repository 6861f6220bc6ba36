(* Means, covariances, and positive matrices. *)
From Coq Require Import ZArith QArith List.
From Verif Require Import Lib.QSum.
Import ListNotations.
Open Scope Q_scope.

Definition size (l : list (nat -> Q)) : Q := inject_Z (Z.of_nat (length l)).
Definition average (f : (nat -> Q) -> Q) (l : list (nat -> Q)) : Q := lsum (map f l) / size l.
Definition mean_of (l : list (nat -> Q)) (i : nat) : Q := average (fun s => s i) l.
Definition cov_of (l : list (nat -> Q)) (i j : nat) : Q := average (fun s => (s i - mean_of l i) * (s j - mean_of l j)) l.
(* the samples of a component among the labelled ones *)
Definition of_comp (c : nat) (l : list (nat * (nat -> Q))) : list (nat -> Q) := map snd (filter (fun p => Nat.eqb (fst p) c) l).

Definition form (n : nat) (m : nat -> nat -> Q) (x : nat -> Q) : Q := sum n (fun i => sum n (fun j => x i * m i j * x j)).
Definition positive_definite (n : nat) (m : nat -> nat -> Q) : Prop := forall x, (exists i, (i < n)%nat /\ ~ x i == 0) -> 0 < form n m x.
Definition product (n : nat) (a b : nat -> nat -> Q) (i j : nat) : Q := sum n (fun k => a i k * b k j).
Definition inverse_of (n : nat) (m x : nat -> nat -> Q) : Prop :=
  forall i j, (i < n)%nat -> (j < n)%nat -> product n m x i j == (if Nat.eqb i j then 1 else 0) /\ product n x m i j == (if Nat.eqb i j then 1 else 0).
(* determinant, by expansion along the first row *)
Definition minor (j : nat) (m : nat -> nat -> Q) : nat -> nat -> Q := fun r c => m (S r) (if Nat.ltb c j then c else S c).
Fixpoint laplace (n : nat) (m : nat -> nat -> Q) : Q :=
  match n with O => 1 | S k => sum n (fun j => (if Nat.even j then 1 else -1) * m 0%nat j * laplace k (minor j m)) end.
(* the covariance that is kept: that of the samples, with 0.01 more variance in each direction if the samples are nearly flat *)
Definition kept_cov (n : nat) (l : list (nat -> Q)) (m : nat -> nat -> Q) : Prop :=
  (1 # 1000000 <= Qabs.Qabs (laplace n (cov_of l)) /\ forall i j, m i j == cov_of l i j) \/
  (Qabs.Qabs (laplace n (cov_of l)) < 1 # 1000000 /\ forall i j, m i j == cov_of l i j + (if Nat.eqb i j then 1 # 100 else 0)).
