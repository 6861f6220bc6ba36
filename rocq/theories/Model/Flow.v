(* The flow graph of cliques: 3rdparty/sospd/include/litiv/3rdparty/sospd/sos-graph.hpp (ArcIterator, ResCap, UpperBoundCliques for all cliques), flow-solver.hpp (BidirectionalIBFS::Augment, Push,
   ComputeMinCut) and submodular-ibfs.hpp (ComputeEnergy). Not modelled: the growth of the trees and the adoption of orphans (IBFS, Adopt, MakeOrphan), the layers, and the ASSERTs on the state of nodes. *)
From Coq Require Import ZArith List Bool.
From Verif Require Import Lib.Grid Model.Submodular Model.Clique.
Import ListNotations.
Open Scope Z_scope.

(* what does not change in a solution: the nodes 0..nnodes-1, the cliques 0..ncl-1 with their nodes, the terminal capacities *)
Record net : Type := { nnodes : Z; ncl : Z; csize : Z -> Z; members : Z -> Z -> Z; c_si : Z -> Z; c_it : Z -> Z }.
Record flow : Type := { cl : Z -> clique; phi_si : Z -> Z; phi_it : Z -> Z }.
Definition put {A} (f : Z -> A) (c : Z) (x : A) : Z -> A := fun d => if d =? c then x else f d.

(* ArcIterator, sos-graph.hpp lines 160-210: source, *cIter and cliqueIdx *)
Definition arc : Type := Z * Z * Z.
(* GetIndex, lines 113-115 *)
Definition get_index (n : Z) (nodes : Z -> Z) (x : Z) : Z := match find (fun i => nodes i =? x) (zrange 0 n) with Some i => i | None => n end.
Definition source (a : arc) : Z := fst (fst a).
Definition target (g : net) (a : arc) : Z := members g (snd (fst a)) (snd a).
(* SourceIdx and TargetIdx, in the order of ResCap (lines 372-378) and Push (flow-solver.hpp lines 537-540) *)
Definition ends (g : net) (forward : bool) (a : arc) : Z * Z :=
  let '(s, c, i) := a in
  let j := get_index (csize g c) (members g c) s in
  if forward then (j, i) else (i, j).
(* Reverse, lines 204-209, but for the place of the clique in the list of the neighbours *)
Definition reverse (g : net) (a : arc) : arc := let '(s, c, i) := a in (members g c i, c, get_index (csize g c) (members g c) s).
(* operator<, lines 173-176: p is the place of cIter; None is a failed ASSERT *)
Definition arc_less (s1 p1 i1 s2 p2 i2 : Z) : option bool := if s1 =? s2 then Some (if p1 =? p2 then s1 <? s2 else p1 <? p2) else None.
(* the walk from ArcsBegin to ArcsEnd by operator++, lines 178-192 and 233-242: cliques left, then the index in the first *)
Fixpoint arcs_from (fuel : nat) (size : Z -> Z) (cs : list Z) (i : Z) : run (list (Z * Z)) :=
  match fuel with
  | O => Running
  | S m => match cs with
           | [] => Done []
           | c :: rest => let i' := i + 1 in
                          bind (if i' =? size c then arcs_from m size rest 0 else arcs_from m size cs i') (fun l => Done ((c, i) :: l))
           end
  end.

(* ResCap *)
Definition res_cap (top : Z) (g : net) (fl : flow) (forward : bool) (a : arc) : run Z :=
  let c := snd (fst a) in exchange_capacity top (csize g c) (alpha (cl fl c)) (fst (ends g forward a)) (snd (ends g forward a)).
(* Push, flow-solver.hpp lines 533-540 *)
Definition push_arc (g : net) (d : Z) (forward : bool) (a : arc) (fl : flow) : run flow :=
  let c := snd (fst a) in
  bind (push (csize g c) (cl fl c) (fst (ends g forward a)) (snd (ends g forward a)) d) (fun c' => Done {| cl := put (cl fl) c c'; phi_si := phi_si fl; phi_it := phi_it fl |}).

(* the way up a tree, lines 350-358 and the like: the last node before the root *)
Fixpoint climb {A} (fuel : nat) (root : Z) (parent : Z -> Z) (step : Z -> A -> run A) (cur : Z) (acc : A) : run (Z * A) :=
  match fuel with
  | O => Running
  | S m => if parent cur =? root then Done (cur, acc) else bind (step cur acc) (climb m root parent step (parent cur))
  end.
(* Augment, lines 338-401; s and t are the numbers nnodes and nnodes+1 (ResetFlow); None is a failed ASSERT of line 373 *)
Definition augment (fuel : nat) (top : Z) (g : net) (parent : Z -> Z) (parc : Z -> arc) (forward : bool) (a : arc) (fl : flow) : run (option flow) :=
  let s := nnodes g in let t := nnodes g + 1 in
  let i := if forward then source a else target g a in
  let j := if forward then target g a else source a in
  let lower dir x b := bind (res_cap top g fl dir (parc x)) (fun c => Done (Z.min b c)) in
  bind (res_cap top g fl forward a) (fun b =>
  bind (climb fuel s parent (lower false) i b) (fun '(x, b) =>
  let b := Z.min b (c_si g x - phi_si fl x) in
  bind (climb fuel t parent (lower true) j b) (fun '(y, b) =>
  let b := Z.min b (c_it g y - phi_it fl y) in
  if b <=? 0 then Done None else
  bind (push_arc g b forward a fl) (fun fl =>
  bind (climb fuel s parent (fun x => push_arc g b false (parc x)) i fl) (fun '(x, fl) =>
  let fl := {| cl := cl fl; phi_si := put (phi_si fl) x (phi_si fl x + b); phi_it := phi_it fl |} in
  bind (climb fuel t parent (fun x => push_arc g b true (parc x)) j fl) (fun '(y, fl) =>
  Done (Some {| cl := cl fl; phi_si := phi_si fl; phi_it := put (phi_it fl) y (phi_it fl y + b) |}))))))).

(* IBFSInit, lines 211-215, one node *)
Definition init_node (g : net) (fl : flow) (i : Z) : flow :=
  match saturate (c_si g i) (c_it g i) (phi_si fl i) (phi_it fl i) with
  | Some (p, q, _) => {| cl := cl fl; phi_si := put (phi_si fl) i p; phi_it := put (phi_it fl) i q |}
  | None => fl
  end.

Definition init_all (g : net) (fl : flow) : flow := fold_left (init_node g) (zrange 0 (nnodes g)) fl.

(* UpperBoundCliques, sos-graph.hpp lines 531-582: psi is one vector for all cliques; None is a failed ASSERT *)
Fixpoint bound_all (ctz0 : option Z) (ub : Z -> table -> run table) (g : net) (fixed : option (Z -> bool)) (energies : Z -> table) (cs : list Z) (fl : flow) (psi : Z -> Z) : run (option flow) :=
  match cs with
  | [] => Done (Some fl)
  | c :: cs => bind (bound_clique ctz0 ub (csize g c) (members g c) fixed (energies c) (cl fl c) psi (phi_it fl)) (fun r =>
      match r with
      | None => Done None
      | Some (c', psi, phi) => bound_all ctz0 ub g fixed energies cs {| cl := put (cl fl) c c'; phi_si := phi_si fl; phi_it := phi |} psi
      end)
  end.

(* ComputeEnergy of a clique, sos-graph.hpp lines 417-426, and of all, submodular-ibfs.hpp lines 140-152 *)
Definition assignment (n : Z) (nodes labels : Z -> Z) : Z := fold_left (fun a i => if labels (nodes i) =? 1 then Z.lor a (2 ^ i) else a) (zrange 0 n) 0.
Definition compute_energy (g : net) (constant : Z) (tables : Z -> table) (labels : Z -> Z) : Z :=
  fold_left (fun e c => e + tables c (assignment (csize g c) (members g c) labels)) (zrange 0 (ncl g))
    (fold_left (fun e i => if labels i =? 1 then e + c_it g i else e + c_si g i) (zrange 0 (nnodes g)) constant).

(* ComputeMinCut, lines 552-565; None is a failed ASSERT *)
Inductive state : Type := St | Tt | Nt | S_orphan | T_orphan.
Definition min_cut (forward : bool) (s : state) : option Z :=
  match s with Tt => Some 0 | St => Some 1 | Nt => Some (if forward then 0 else 1) | _ => None end.
