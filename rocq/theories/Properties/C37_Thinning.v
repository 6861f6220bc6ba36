(** C37: Zhang-Suen thinning. *)
From Coq Require Import ZArith List Bool Lia.
From Verif Require Import Model.Thinning Spec.Thinning Proofs.Thinning.
Import ListNotations.
Open Scope Z_scope.

(** one subiteration clears exactly the interior pixels whose ring of neighbours satisfies the published conditions *)
Theorem C37_pass_exact : forall rows cols second f y x,
  zs_pass rows cols second f y x = 0 <-> f y x = 0 \/ (inner rows cols y x /\ removable second f y x).
Proof. exact pass_zero. Qed.
Print Assumptions C37_pass_exact.

Theorem C37_pass_keeps_values : forall rows cols second f y x,
  zs_pass rows cols second f y x = f y x \/ zs_pass rows cols second f y x = 0.
Proof. exact pass_kept_or_zero. Qed.
Print Assumptions C37_pass_keeps_values.

(** the foreground neighbours of a cleared pixel are 2 to 6 consecutive neighbours of its ring *)
Theorem C37_removed_neighbours_form_arc : forall second f y x, removable second f y x ->
  exists i n, 2 <= n <= 6 /\ forall k, 0 <= k < 8 -> (fg (nb f y x (i + k)) <-> k < n).
Proof. exact removable_arc. Qed.
Print Assumptions C37_removed_neighbours_form_arc.

(** the outer loop ends after at most rows * cols + 2 rounds, and more fuel changes nothing *)
Theorem C37_terminates : forall rows cols f fuel, 3 < rows -> 3 < cols -> rows * cols + 1 < Z.of_nat fuel ->
  exists g, thinning_zs fuel rows cols f = Done (Some g).
Proof. exact thinning_terminates. Qed.
Print Assumptions C37_terminates.

Theorem C37_fuel_irrelevant : forall k k' rows cols f g, (k <= k')%nat ->
  thinning_zs k rows cols f = Done (Some g) -> thinning_zs k' rows cols f = Done (Some g).
Proof. exact thinning_fuel. Qed.
Print Assumptions C37_fuel_irrelevant.

Theorem C37_subset : forall fuel rows cols f g, thinning_zs fuel rows cols f = Done (Some g) -> forall y x, g y x = f y x \/ g y x = 0.
Proof. exact (fun fuel rows cols f g H => loop_kept rows cols fuel f _ g (proj2 (proj2 (thinning_inv _ _ _ _ _ H)))). Qed.
Print Assumptions C37_subset.

Theorem C37_border_kept : forall fuel rows cols f g, thinning_zs fuel rows cols f = Done (Some g) ->
  forall y x, ~ inner rows cols y x -> g y x = f y x.
Proof. exact (fun fuel rows cols f g H => loop_border rows cols fuel f _ g (proj2 (proj2 (thinning_inv _ _ _ _ _ H)))). Qed.
Print Assumptions C37_border_kept.

(** no interior foreground pixel of the result can be removed by either subiteration *)
Theorem C37_result_irreducible : forall fuel rows cols f g, thinning_zs fuel rows cols f = Done (Some g) ->
  forall second y x, inner rows cols y x -> g y x <> 0 -> ~ removable second g y x.
Proof. exact thinning_no_removable. Qed.
Print Assumptions C37_result_irreducible.

Theorem C37_idempotent : forall fuel rows cols f g, thinning_zs fuel rows cols f = Done (Some g) ->
  exists h, thinning_zs 2 rows cols g = Done (Some h) /\ agree rows cols h g.
Proof. exact thinning_idempotent. Qed.
Print Assumptions C37_idempotent.

(** only the pattern of zero and non-zero pixels matters *)
Theorem C37_pattern_only : forall k k' rows cols f f' g g', same_shape rows cols f f' ->
  thinning_zs k rows cols f = Done (Some g) -> thinning_zs k' rows cols f' = Done (Some g') -> same_shape rows cols g g'.
Proof. exact thinning_shape. Qed.
Print Assumptions C37_pattern_only.

(** a component can disappear: the 2x2 block *)
Definition block22 : img := fun y x => if ((1 <=? y) && (y <=? 2) && (1 <=? x) && (x <=? 2))%bool then 255 else 0.
Theorem C37_nonempty_preserved_refuted : exists f g, f 1 1 = 255 /\ f 2 2 = 255 /\
  thinning_zs 20 5 5 f = Done (Some g) /\ forall y x, inside 5 5 y x -> g y x = 0.
Proof.
  exists block22. eexists. split; [ reflexivity | split; [ reflexivity | split; [ reflexivity |]]].
  intros y x I. unfold inside in I. assert (Hy : y = 0 \/ y = 1 \/ y = 2 \/ y = 3 \/ y = 4) by lia.
  assert (Hx : x = 0 \/ x = 1 \/ x = 2 \/ x = 3 \/ x = 4) by lia.
  destruct Hy as [Hy|[Hy|[Hy|[Hy|Hy]]]]; destruct Hx as [Hx|[Hx|[Hx|[Hx|Hx]]]]; subst; vm_compute; reflexivity.
Qed.
Print Assumptions C37_nonempty_preserved_refuted.

(** a 3x3 square inside 5x5 thins to its centre pixel; the corner pixel is removable in the first subiteration *)
Definition square33 : img := fun y x => if ((1 <=? y) && (y <=? 3) && (1 <=? x) && (x <=? 3))%bool then 255 else 0.
Example C37_ex_square : removable false square33 3 3 /\ ~ removable false square33 2 2 /\ zs_pass 5 5 false square33 3 3 = 0 /\
  map (fun y => map (zs_pass 5 5 true (zs_pass 5 5 false square33) y) [0; 1; 2; 3; 4]) [0; 1; 2; 3; 4] =
  [[0;0;0;0;0]; [0;0;0;0;0]; [0;0;255;0;0]; [0;0;0;0;0]; [0;0;0;0;0]].
Proof.
  split; [ apply mark_removable; reflexivity |]. split; [ intro H; apply mark_removable in H; discriminate |]. split; vm_compute; reflexivity.
Qed.
Example C37_ex_terminates : exists g, thinning_zs 27 5 5 square33 = Done (Some g).
Proof. apply C37_terminates; reflexivity. Qed.
