(** C06: find_nn_index returns the first minimiser. *)
From Coq Require Import QArith List.
From Verif Require Import Model.Interp Spec.Interp Proofs.Interp.
Import ListNotations.
Open Scope Q_scope.

Theorem C06_find_nn_index_first_minimiser : forall {V} (dist : V -> V -> Q) (req : V) (vals : list V) (i : nat),
  find_nn_index dist req vals = Some i -> first_nearest dist req vals i.
Proof. intros V dist req. exact (find_nn_first dist req). Qed.
Print Assumptions C06_find_nn_index_first_minimiser.

Theorem C06_find_nn_index_sentinel_iff_empty : forall {V} (dist : V -> V -> Q) (req : V) (vals : list V),
  find_nn_index dist req vals = None <-> vals = [].
Proof. intros V dist req. exact (find_nn_none dist req). Qed.
Print Assumptions C06_find_nn_index_sentinel_iff_empty.

(** a tie between 4 and 6: the first one is returned *)
Example C06_ex : find_nn_index L1q 5 [9; 4; 6; 4] = Some 1%nat.
Proof. reflexivity. Qed.
