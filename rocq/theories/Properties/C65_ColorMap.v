From Coq Require Import ZArith List Permutation Lia.
From Verif Require Import Model.ColorMap Spec.ColorMap Proofs.ColorMap.
Import ListNotations.
Open Scope Z_scope.

(* between 2 and 719 distinct values: equal values get equal colors and different values different ones, none of them grey, and the table handed
   back has exactly the values of the image *)
Theorem C65_distinct : forall m rand shuffle, (forall l, Permutation l (shuffle l)) -> ~ values_at_most 1 m -> values_at_most 719 m ->
  exists image t, getUniqueColorMap m rand shuffle = Painted image (Some t) /\ tells_apart m image /\
    (forall v, In v (map fst t) <-> In v m) /\ NoDup (map fst t) /\ (forall v c, In (v, c) t -> colorful c) /\
    (forall i, (i < length m)%nat -> In (nth i m 0, nth i image (0, 0, 0)) t).
Proof. exact distinct_claim. Qed.
Print Assumptions C65_distinct.

(* more are refused *)
Theorem C65_refused : forall m rand shuffle, getUniqueColorMap m rand shuffle = Refused <-> ~ values_at_most 719 m.
Proof. exact refused_claim. Qed.
Print Assumptions C65_refused.

(* an image of one value is white, and the table is not filled *)
Theorem C65_single : forall m rand shuffle, values_at_most 1 m -> getUniqueColorMap m rand shuffle = Painted (repeat (255, 255, 255) (length m)) None.
Proof. exact single_claim. Qed.
Print Assumptions C65_single.

(* the search for an angle always ends *)
Theorem C65_ends : forall m rand shuffle, getUniqueColorMap m rand shuffle <> Endless.
Proof. exact ends_claim. Qed.
Print Assumptions C65_ends.

(* refuted: a table that is asked for has the values of the image *)
Theorem C65_table_refuted : exists m, m <> [] /\ forall rand shuffle image t, getUniqueColorMap m rand shuffle <> Painted image (Some t).
Proof. exists [7; 7]. split; [ discriminate | ]. intros. discriminate. Qed.
Print Assumptions C65_table_refuted.

Example C65_ex :
  let m := [3; -1; 3; 250; 9; 9] in
  ~ values_at_most 1 m /\ values_at_most 719 m /\
  getUniqueColorMap m (fun _ => 70000) (@rev color) =
    Painted [(255, 217, 0); (255, 0, 166); (255, 217, 0); (0, 38, 255); (0, 255, 89); (0, 255, 89)]
      (Some [(-1, (255, 0, 166)); (3, (255, 217, 0)); (9, (0, 255, 89)); (250, (0, 38, 255))]).
Proof.
  split; [ | split ].
  - intros (l & L & I). assert (A := I 3 ltac:(cbn; tauto)). assert (B := I 9 ltac:(cbn; tauto)). destruct l as [|x [|y l]]; cbn in *; try lia; intuition lia.
  - exists [3; -1; 250; 9]. split; [ apply Nat.leb_le; reflexivity | ]. intros x. cbn. tauto.
  - vm_compute. reflexivity.
Qed.
