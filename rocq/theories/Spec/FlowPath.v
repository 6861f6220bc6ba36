(* Flows in a graph with cliques: paths, what they need, and cuts through which nothing goes. *)
From Coq Require Import ZArith List Bool.
From Verif Require Import Lib.Grid Model.Submodular Spec.Submodular Model.Clique Spec.Clique Model.Flow Spec.Flow.
Import ListNotations.
Open Scope Z_scope.

(* what is left of the terminals and cliques for a labelling *)
Definition residual (g : net) (fl : flow) (L : Z -> bool) : Z :=
  cut (nnodes g) (fun j => c_si g j - phi_si fl j) (fun j => c_it g j - phi_it fl j) L + cliques (ncl g) (csize g) (members g) (fun c => alpha (cl fl c)) L.
(* 1 to 31 nodes in each clique, all of them nodes of the graph *)
Definition wf (g : net) : Prop := 0 <= nnodes g /\ 0 <= ncl g /\ forall c, 0 <= c < ncl g -> 1 <= csize g c < 32 /\ forall i, 0 <= i < csize g c -> 0 <= members g c i < nnodes g.
Definition clique_of (a : arc) : Z := snd (fst a).
(* an arc of the graph, from a node to another one *)
Definition proper (g : net) (a : arc) : Prop :=
  0 <= clique_of a < ncl g /\ 0 <= snd a < csize g (clique_of a) /\ (exists i, 0 <= i < csize g (clique_of a) /\ members g (clique_of a) i = source a) /\ target g a <> source a.
(* where a use of an arc, forward or backward, starts and ends *)
Definition tail (g : net) (p : bool * arc) : Z := if fst p then source (snd p) else target g (snd p).
Definition head (g : net) (p : bool * arc) : Z := if fst p then target g (snd p) else source (snd p).
(* the tight sets are those of the last table *)
Definition current (g : net) (fl : flow) : Prop := forall c, 0 <= c < ncl g -> exists m, min_tight (csize g c) (alpha (cl fl c)) m = Done (tight (cl fl c)).
(* the nodes met on the way to the root, but for the last *)
Inductive chain (parent : Z -> Z) (root : Z) : Z -> list Z -> Z -> Prop :=
| chain_end x : parent x = root -> chain parent root x [] x
| chain_step x l y : parent x <> root -> chain parent root (parent x) l y -> chain parent root x (x :: l) y.
(* what an arc lets through *)
Definition lets (g : net) (fl : flow) (p : bool * arc) (k : Z) : Prop :=
  capacity (csize g (clique_of (snd p))) (alpha (cl fl (clique_of (snd p)))) (fst (ends g (fst p) (snd p))) (snd (ends g (fst p) (snd p))) k.
(* no table exceeds numeric_limits::max() *)
Definition roomy (top : Z) (g : net) (fl : flow) : Prop := forall c S, 0 <= c < ncl g -> within (csize g c) S -> alpha (cl fl c) S <= top.
(* the path from s to t *)
Definition way (forward : bool) (a : arc) (parc : Z -> arc) (ls lt : list Z) : list (bool * arc) :=
  rev (map (fun x => (false, parc x)) ls) ++ (forward, a) :: map (fun x => (true, parc x)) lt.
(* the arcs kept with the nodes of a tree lead to the parents *)
Definition on_tree (g : net) (parent : Z -> Z) (parc : Z -> arc) (l : list Z) : Prop := forall z, In z l -> proper g (parc z) /\ source (parc z) = z /\ target g (parc z) = parent z.
(* from the start of an arc of the path to the end of a later one, in the same clique, nothing can be pushed *)
Definition no_shortcut (g : net) (fl : flow) (l : list (bool * arc)) : Prop :=
  ForallOrdPairs (fun p q => clique_of (snd p) = clique_of (snd q) ->
    capacity (csize g (clique_of (snd p))) (alpha (cl fl (clique_of (snd p)))) (fst (ends g (fst p) (snd p))) (snd (ends g (fst q) (snd q))) 0) l.
Definition all_normal (g : net) (fl : flow) : Prop := forall c, 0 <= c < ncl g -> normal (csize g c) (alpha (cl fl c)).
(* any number of augmentations along paths without shortcuts *)
Inductive evolves (g : net) : flow -> flow -> Prop :=
| still fl : evolves g fl fl
| onward fl fl' fl'' fuel top parent parc fwd a ls xs lt xt :
    roomy top g fl -> proper g a -> chain parent (nnodes g) (tail g (fwd, a)) ls xs -> chain parent (nnodes g + 1) (head g (fwd, a)) lt xt ->
    on_tree g parent parc ls -> on_tree g parent parc lt -> (length ls < fuel)%nat -> (length lt < fuel)%nat -> no_shortcut g fl (way fwd a parc ls lt) ->
    augment fuel top g parent parc fwd a fl = Done (Some fl') -> evolves g fl' fl'' -> evolves g fl fl''.
Definition within_caps (g : net) (fl : flow) : Prop := forall j, 0 <= j < nnodes g -> phi_si fl j <= c_si g j /\ phi_it fl j <= c_it g j.
(* no arc leads from the label 1 to the label 0: full terminals, and no NonzeroCapacity *)
Definition closed_cut (g : net) (fl : flow) (L : Z -> bool) : Prop :=
  (forall j, 0 <= j < nnodes g -> if L j then phi_it fl j = c_it g j else phi_si fl j = c_si g j) /\
  forall c u v, 0 <= c < ncl g -> 0 <= u < csize g c -> 0 <= v < csize g c -> L (members g c u) = true -> L (members g c v) = false -> nonzero_capacity (tight (cl fl c)) u v = false.
(* the arcs of a node, clique by clique *)
Definition all_arcs (size : Z -> Z) (cs : list Z) : list (Z * Z) := flat_map (fun d => map (pair d) (zrange 0 (size d))) cs.
