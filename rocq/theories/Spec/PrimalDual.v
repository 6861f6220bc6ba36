(* The energy of a labeling, what the duals are meant to satisfy, and the value of a problem handed to the solver. *)
From Coq Require Import ZArith List Bool.
From Verif Require Import Lib.Grid Spec.FusionTerms Model.PrimalDual.
Import ListNotations.
Local Open Scope Z_scope.

Definition energy (g : graph) (x : Z -> Z) : Z :=
  total (map (fun i => unary g i (x i)) (gnodes g)) + total (map (fun c => ccost c (map x (cnodes c))) (all_cliques g)).

Definition labelling (g : graph) (x : Z -> Z) : Prop := forall i, In i (gnodes g) -> 0 <= x i < nlab g.
(* no clique is empty, all members are nodes of the graph, no cost is negative *)
Definition proper (g : graph) : Prop :=
  NoDup (gnodes g) /\ 0 < nlab g /\
  forall c, In c (all_cliques g) -> cnodes c <> [] /\ (forall i, In i (cnodes c) -> In i (gnodes g)) /\ forall x, labelling g x -> 0 <= ccost c (map x (cnodes c)).

(* node [i] is at position [d] of clique number [r] *)
Definition incident (g : graph) (i r d : Z) : Prop :=
  exists c, 0 <= r /\ nth_error (all_cliques g) (Z.to_nat r) = Some c /\ 0 <= d < csize c /\ node_at c d = i.
(* each node knows the cliques that it belongs to *)
Definition exact_members (g : graph) : Prop := forall i, In i (gnodes g) -> NoDup (members g i) /\ forall r d, In (r, d) (members g i) <-> incident g i r d.

(* the duals of a clique at the current labels add up to its cost *)
Definition tight (g : graph) (x : Z -> Z) (st : duals) : Prop := forall r c, 0 <= r -> nth_error (all_cliques g) (Z.to_nat r) = Some c ->
  total (map (fun d => dual st r (column g d (x (node_at c d)))) (zrange 0 (csize c))) = ccost c (map x (cnodes c)).
(* a height is the unary cost and all duals of the node *)
Definition heights (g : graph) (st : duals) : Prop := forall i l P, In i (gnodes g) -> 0 <= l < nlab g -> NoDup P -> (forall r d, In (r, d) P <-> incident g i r d) ->
  height st i l = unary g i l + total (map (fun rd => dual st (fst rd) (column g (snd rd) l)) P).

(* the nodes of [S] take the new label *)
Definition fused (x : Z -> Z) (alpha : Z) (S : Z -> bool) : Z -> Z := fun i => if S i then alpha else x i.
Definition mask (S : Z -> bool) (c : clique) : Z := total (map (fun d => if S (node_at c d) then 2 ^ d else 0) (zrange 0 (csize c))).
(* 3rdparty/sospd/.../submodular-ibfs.hpp:140-152, ComputeEnergy *)
Definition value (g : graph) (p : problem) (S : Z -> bool) : Z :=
  total (map (fun i => if S i then snd (terms p i) else fst (terms p i)) (gnodes g)) + total (map (fun ct => snd ct (mask S (fst ct))) (tables p)).
Definition nobody : Z -> bool := fun _ => false.
