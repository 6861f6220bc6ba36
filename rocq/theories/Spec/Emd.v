(* Transport plans between histograms on a line or on a circle. *)
From Coq Require Import ZArith QArith Qabs List.
From Verif Require Import Lib.QSum.
Import ListNotations.
Open Scope Q_scope.

Definition at_ (l : list Q) (i : nat) : Q := nth i l 0.
(* f i j is moved from bin i to bin j *)
Definition plan (n : nat) (a b : nat -> Q) (f : nat -> nat -> Q) : Prop :=
  (forall i j, (i < n)%nat -> (j < n)%nat -> 0 <= f i j) /\
  (forall i, (i < n)%nat -> sum n (f i) == a i) /\ (forall j, (j < n)%nat -> sum n (fun i => f i j) == b j).
Definition line (i j : nat) : Z := Z.abs (Z.of_nat i - Z.of_nat j).
Definition circle (n : nat) (i j : nat) : Z := Z.min (line i j) (Z.of_nat n - line i j).
Definition work (n : nat) (dist : nat -> nat -> Z) (f : nat -> nat -> Q) : Q := sum n (fun i => sum n (fun j => f i j * inject_Z (dist i j))).
(* the least work that is needed *)
Definition least_work (n : nat) (dist : nat -> nat -> Z) (a b : nat -> Q) (d : Q) : Prop :=
  (forall f, plan n a b f -> d <= work n dist f) /\ exists f, plan n a b f /\ work n dist f == d.
Definition histogram (l : list Q) : Prop := Forall (fun x => 0 <= x) l.
Definition metric_on (P : list Q -> Prop) (d : list Q -> list Q -> option Q) : Prop :=
  forall a b c, P a -> P b -> P c -> exists ab ba bc ac,
    d a b = Some ab /\ d b a = Some ba /\ d b c = Some bc /\ d a c = Some ac /\
    0 <= ab /\ ab == ba /\ ac <= ab + bc /\ (ab == 0 <-> Forall2 Qeq a b).
(* the same circle, numbered from another bin *)
Definition renumber (r : nat) (l : list Q) : list Q := skipn r l ++ firstn r l.
