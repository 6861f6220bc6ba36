(* Cliques of the flow graph: 3rdparty/sospd/include/litiv/3rdparty/sospd/sos-graph.hpp, class IBFSEnergyTableClique; the bound of one clique, the reset of the flow, and the terminal weights
   (also submodular-ibfs.hpp, AddUnaryTerm, and flow-solver.hpp, the start of IBFSInit).
   Sets of the n nodes of a clique are assignments, unsigned of 32 bits, 0 <= n <= 31 (ASSERT of line 136); tables and integers are those of Model/Submodular.v: values do not overflow. *)
From Coq Require Import ZArith List Bool.
From Verif Require Import Lib.Grid Model.Submodular.
Import ListNotations.
Open Scope Z_scope.

(* m_alpha_energy, m_alpha_Ci, m_min_tight_set, lines 118-119 and 155-157; m_energy does not change and is given apart *)
Record clique : Type := { alpha : table; ci : Z -> Z; tight : Z -> Z }.

(* do ... while over the sets without u and v, lines 454-460 and 480-487: fuel is the number of turns allowed *)
Fixpoint submasks {A} (fuel : nat) (mask : Z) (step : Z -> A -> A) (a : Z) (st : A) : run A :=
  match fuel with
  | O => Running
  | S m => let st := step a st in
           let next := Z.land ((a - 1) mod 2 ^ 32) mask in
           if next =? mask then Done st else submasks m mask step next st
  end.
(* bound & ~uv_mask, lines 446-451 *)
Definition others (n u v : Z) : Z := Z.land (2 ^ n - 1) (2 ^ 32 - 1 - Z.lor (2 ^ u) (2 ^ v)).

(* ExchangeCapacity, lines 441-463; top is numeric_limits<REAL>::max() *)
Definition exchange_capacity (top n : Z) (f : table) (u v : Z) : run Z :=
  submasks (Z.to_nat (2 ^ n)) (others n u v) (fun a m => let e := f (Z.lor a (2 ^ u)) in if e <? m then e else m) (others n u v) top.

(* ComputeMinTightSets, lines 493-509: for no node at all, bound - 1 is 2^32 - 1, beyond the table *)
Definition tight_step (n : Z) (f : table) (m : Z -> Z) (a : Z) : Z -> Z :=
  if f a =? 0 then fold_left (fun m i => if negb (Z.land a (2 ^ i) =? 0) then upd m i a else m) (zrange 0 n) m else m.
Definition min_tight (n : Z) (f : table) (m : Z -> Z) : run (Z -> Z) :=
  if n =? 0 then Undefined else
  let bound := 2 ^ n - 1 in
  Done (fold_left (tight_step n f) (rev (zrange 1 (bound - 1))) (fun i => if (0 <=? i) && (i <? n) then bound else m i)).

(* NonzeroCapacity, lines 512-515 *)
Definition nonzero_capacity (m : Z -> Z) (u v : Z) : bool := negb (Z.land (m u) (2 ^ v) =? 0).

(* Push, lines 466-490 *)
Definition push (n : Z) (c : clique) (u v delta : Z) : run clique :=
  let ci1 := upd (ci c) u (ci c u + delta) in
  let ci2 := upd ci1 v (ci1 v - delta) in
  bind (submasks (Z.to_nat (2 ^ n)) (others n u v)
          (fun a f => let f := upd f (Z.lor a (2 ^ u)) (f (Z.lor a (2 ^ u)) - delta) in
                      upd f (Z.lor a (2 ^ v)) (f (Z.lor a (2 ^ v)) + delta)) (others n u v) (alpha c)) (fun f =>
  bind (min_tight n f (tight c)) (fun m => Done {| alpha := f; ci := ci2; tight := m |})).

(* pushes one after the other *)
Fixpoint pushes (n : Z) (c : clique) (l : list (Z * Z * Z)) : run clique :=
  match l with [] => Done c | (u, v, d) :: l => bind (push n c u v d) (fun c => pushes n c l) end.

(* ResetAlpha, lines 518-527, and ComputeMinTightSets, as in lines 365-366 *)
Definition reset_clique (n : Z) (energy : table) (c : clique) : run clique :=
  let f := fold_left (fun f a => upd f a (energy a)) (zrange 0 (2 ^ n)) (alpha c) in
  bind (min_tight n f (tight c)) (fun m => Done {| alpha := f; ci := fun i => if (0 <=? i) && (i <? n) then 0 else ci c i; tight := m |}).

(* the fixed nodes of the clique, lines 554-556 *)
Definition fixed_set (n : Z) (nodes : Z -> Z) (fixed : Z -> bool) : Z := fold_left (fun s i => Z.lor s (Z.shiftl (Z.b2z (fixed (nodes i))) i)) (zrange 0 n) 0.
(* UpperBoundCliques, lines 547-576, one clique: ub is the bound chosen, fixed is fixedVars unless empty; psi is the vector shared by the cliques;
   nodes are the nodes of the clique; the norms for the statistics are left out. None: a failed ASSERT in Normalize *)
Definition bound_clique (ctz0 : option Z) (ub : Z -> table -> run table) (n : Z) (nodes : Z -> Z) (fixed : option (Z -> bool)) (energy : table) (c : clique) (psi phi_it : Z -> Z)
    : run (option (clique * (Z -> Z) * (Z -> Z))) :=
  bind (ub n energy) (fun g =>
  let g := match fixed with None => g | Some v => zero_marginal n (fixed_set n nodes v) g end in
  bind (normalize ctz0 n g psi) (fun r =>
  match r with
  | None => Done None
  | Some (g, psi) =>
      let ci' := fold_left (fun m i => upd m i (- psi i)) (zrange 0 n) (ci c) in
      let phi' := fold_left (fun phi i => upd phi (nodes i) (phi (nodes i) + psi i)) (zrange 0 n) phi_it in
      bind (min_tight n g (tight c)) (fun m => Done (Some ({| alpha := g; ci := ci'; tight := m |}, psi, phi')))
  end)).

(* AddUnaryTerm, submodular-ibfs.hpp lines 96-110, with AddTerminalWeights, sos-graph.hpp lines 321-324: the constant, m_c_si[n] and m_c_it[n] *)
Definition unary (st : Z * Z * Z) (e0 e1 : Z) : Z * Z * Z :=
  let '(c, si, it) := st in
  let '(c, e0, e1) := if e0 <? 0 then (c + e0, 0, e1 - e0) else (c, e0, e1) in
  let '(c, e0, e1) := if e1 <? 0 then (c + e1, e0 - e1, 0) else (c, e0, e1) in
  (c, si + e0, it + e1).

(* IBFSInit, flow-solver.hpp lines 212-233, for one node: the flows, and the tree the node joins; None is a failed ASSERT *)
Inductive side : Type := Source | Sink | Free.
Definition saturate (c_si c_it phi_si phi_it : Z) : option (Z * Z * side) :=
  let min_cap := Z.min (c_si - phi_si) (c_it - phi_it) in
  let phi_si := phi_si + min_cap in
  let phi_it := phi_it + min_cap in
  if phi_si <? c_si then Some (phi_si, phi_it, Source) else
  if phi_it <? c_it then Some (phi_si, phi_it, Sink) else
  if (c_si =? phi_si) && (c_it =? phi_it) then Some (phi_si, phi_it, Free) else None.

(* The vectors of the graph: m_nodes, m_phi_si and m_phi_it by their lengths (the other three grow as m_phi_si does), m_num_nodes, and whether s is set.
   AddNode, lines 304-318; None is a failed ASSERT *)
Record graph : Type := { nodes_len : Z; phi_len : Z; num_nodes : Z; terminals : bool }.
Definition empty_graph : graph := {| nodes_len := 0; phi_len := 0; num_nodes := 0; terminals := false |}.
Definition add_node (g : graph) (n : Z) : option graph :=
  if (n <? 1) || terminals g then None else
  Some {| nodes_len := nodes_len g + n; phi_len := phi_len g + n; num_nodes := num_nodes g + n; terminals := false |}.
(* ResetFlow, lines 346-360: the indices read or written in m_nodes and in m_phi_si, m_phi_it *)
Definition reset_flow (g : graph) : graph * list Z :=
  let g := if terminals g then g else {| nodes_len := nodes_len g + 2; phi_len := phi_len g; num_nodes := num_nodes g; terminals := true |} in
  (g, zrange 0 (num_nodes g + 2)).
(* ClearTerminals, lines 327-332: the indices written *)
Definition clear_terminals (g : graph) : list Z := zrange 0 (num_nodes g).
