(** C08: linspace over exact arithmetic. *)
From Coq Require Import QArith List.
From Verif Require Import Model.Interp Spec.Interp Proofs.Interp.
Import ListNotations.
Open Scope Q_scope.

Theorem C08_linspace_points : forall a b n, (2 <= n)%nat ->
  length (linspace a b n true) = n /\
  forall i, (i < n)%nat -> exists v, nth_error (linspace a b n true) i = Some v /\
    v == a + (b - a) * (inject_Z (Z.of_nat i) / inject_Z (Z.of_nat (n - 1))).
Proof. exact linspace_incl. Qed.
Print Assumptions C08_linspace_points.

Theorem C08_linspace_endpoints_and_step : forall a b n, (2 <= n)%nat ->
  (exists v, nth_error (linspace a b n true) 0 = Some v /\ v == a) /\
  (exists v, nth_error (linspace a b n true) (n - 1) = Some v /\ v == b) /\
  forall i u v, nth_error (linspace a b n true) i = Some u -> nth_error (linspace a b n true) (S i) = Some v ->
    (v - u) * inject_Z (Z.of_nat (n - 1)) == b - a.
Proof. exact linspace_ends. Qed.
Print Assumptions C08_linspace_endpoints_and_step.

(** without the initial value: the points a+(b-a)/n, ..., b *)
Theorem C08_linspace_without_initial : forall a b n, (2 <= n)%nat ->
  length (linspace a b n false) = n /\
  forall i, (i < n)%nat -> exists v, nth_error (linspace a b n false) i = Some v /\
    v == a + (b - a) * (inject_Z (Z.of_nat (S i)) / inject_Z (Z.of_nat n)).
Proof. exact linspace_excl. Qed.
Print Assumptions C08_linspace_without_initial.

Theorem C08_linspace_small : forall a b incl, linspace a b 0 incl = [] /\ linspace a b 1 incl = [b].
Proof. intros a b incl. split; reflexivity. Qed.
Print Assumptions C08_linspace_small.

Example C08_ex : Forall2 Qeq (linspace 0 1 3 true) [0; 1#2; 1].
Proof. repeat constructor. Qed.
