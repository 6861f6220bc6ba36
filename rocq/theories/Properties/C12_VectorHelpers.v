(** C12: vector helpers. *)
From Coq Require Import List ZArith Permutation Sorted Lia.
From Verif Require Import Model.Vectors Spec.Vectors Proofs.Vectors.
Import ListNotations.
Open Scope Z_scope.

Theorem C12_filter_out : forall {A} (eqb : A -> A -> bool), (forall a b, eqb a b = true <-> a = b) ->
  forall vals tokens, keeps (fun v => ~ In v tokens) vals (filter_out eqb vals tokens).
Proof. intros A eqb H. exact (filter_out_keeps eqb H). Qed.
Print Assumptions C12_filter_out.

Theorem C12_filter_in : forall {A} (eqb : A -> A -> bool), (forall a b, eqb a b = true <-> a = b) ->
  forall vals tokens, keeps (fun v => In v tokens) vals (filter_in eqb vals tokens).
Proof. intros A eqb H. exact (filter_in_keeps eqb H). Qed.
Print Assumptions C12_filter_in.

Theorem C12_indices_of : forall {A} (eqb : A -> A -> bool), (forall a b, eqb a b = true <-> a = b) ->
  forall vals refs, Forall2 (index_or_past refs) vals (indices_of eqb vals refs).
Proof. intros A eqb H. exact (indices_of_spec eqb H). Qed.
Print Assumptions C12_indices_of.

(** whatever admissible order std::sort produces *)
Theorem C12_sort_indices : forall vals idx, sort_indices_result vals idx ->
  Permutation (seq 0 (length vals)) idx /\ Permutation vals (map (fun i => nth i vals 0) idx) /\
  StronglySorted Z.le (map (fun i => nth i vals 0) idx).
Proof. exact sort_indices_sorts. Qed.
Print Assumptions C12_sort_indices.

(** each distinct value is represented exactly once, in increasing order *)
Theorem C12_unique_indices : forall vals idx, sort_indices_result vals idx ->
  let u := unique_indices_of vals idx in
  StronglySorted Z.lt (map (fun i => nth i vals 0) u) /\
  (forall i, In i u -> (i < length vals)%nat) /\
  (forall v, In v vals -> In v (map (fun i => nth i vals 0) u)).
Proof. exact unique_indices_spec. Qed.
Print Assumptions C12_unique_indices.

(** but not necessarily by its first occurrence, as documented: std::sort is not stable *)
Theorem C12_unique_indices_first_occurrence_refuted : exists vals idx i j, sort_indices_result vals idx /\
  In i (unique_indices_of vals idx) /\ (j < i)%nat /\ nth j vals 0 = nth i vals 0.
Proof.
  exists [7; 7], [1%nat; 0%nat], 1%nat, 0%nat. repeat split.
  - apply perm_swap.
  - repeat constructor.
  - left. reflexivity.
  - lia.
Qed.
Print Assumptions C12_unique_indices_first_occurrence_refuted.

Theorem C12_unique : forall l, StronglySorted Z.lt (unique l) /\ forall x, In x (unique l) <-> In x l.
Proof. exact unique_spec. Qed.
Print Assumptions C12_unique.

Theorem C12_make_range : forall a b step, - 2 ^ 31 <= a -> a <= b -> b < 2 ^ 31 - 1 -> b - a < 2 ^ 31 -> 0 < step -> (b - a) mod step = 0 ->
  make_range a b step = Ret (map (fun k => a + Z.of_nat k * step) (seq 0 (Z.to_nat ((b - a) / step) + 1))).
Proof. exact make_range_ok. Qed.
Print Assumptions C12_make_range.

Theorem C12_make_range_empty : forall a b step, b < a -> make_range a b step = Ret [].
Proof. exact make_range_empty. Qed.
Print Assumptions C12_make_range_empty.

(** ranges ending at INT_MAX overflow the running value of std::iota; ranges wider than INT_MAX overflow b-a *)
Theorem C12_make_range_all_ints_refuted :
  make_range (2 ^ 31 - 2) (2 ^ 31 - 1) 1 = Undef /\ make_range (- 2) (2 ^ 31 - 1) 1 = Undef.
Proof. split; reflexivity. Qed.
Print Assumptions C12_make_range_all_ints_refuted.

Example C12_ex_filters : filter_out Z.eqb [3; 1; 3; 2] [3] = [1; 2] /\ filter_in Z.eqb [3; 1; 3; 2] [3; 9] = [3; 3]
  /\ indices_of Z.eqb [2; 5; 1] [1; 2; 2] = [1; 3; 0]%nat.
Proof. repeat split. Qed.
Example C12_ex_sort : sort_indices_result [30; 10; 20] [1; 2; 0]%nat /\ unique [3; 1; 3; 2] = [1; 2; 3].
Proof.
  repeat split; [|repeat constructor].
  change (seq 0 (length [30; 10; 20])) with [0; 1; 2]%nat. apply (Permutation_cons_app [1;2]%nat []). apply Permutation_refl.
Qed.
Example C12_ex_range : make_range 3 11 4 = Ret [3; 7; 11] /\ make_range 0 5 4 = Thrown.
Proof. split; reflexivity. Qed.
