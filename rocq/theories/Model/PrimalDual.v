(* The primal-dual moves of SegmMatcher, which it uses for resegmentation (modules/imgproc/src/SegmMatcher.cpp:2836-3067):
   the starting duals, the problem that is handed to the submodular solver, and what is done with its answer. The solver
   itself is not modelled: its labels and its reparametrization are parameters. Integers are unbounded; assertions of
   debug builds give None where the proofs have to show that they hold. A node is named by its index in the labeling. *)
From Coq Require Import ZArith List Bool.
From Verif Require Import Lib.Grid Model.FusionTerms Model.StereoMoves.
Import ListNotations.
Local Open Scope Z_scope.

(* utils/opengm.hpp, Clique: the members, and the table of the function over their labels *)
Record clique := Clique { cnodes : list Z; ccost : list Z -> Z }.
(* the nodes in graph order; the cliques that each one owns (vpCliques); its unary function; its memberships, each one the
   number of a clique and a position in it (vCliqueMemberLUT); the number of labels *)
Record graph := Graph { gnodes : list Z; owned : Z -> list clique; unary : Z -> Z -> Z; members : Z -> list (Z * Z); nlab : Z }.
(* oDualMap and oHeightMap, and how many cliques have been seen *)
Record duals := Duals { dual : Z -> Z -> Z; height : Z -> Z -> Z; seen : Z }.
Definition upd2 (f : Z -> Z -> Z) (a b v : Z) : Z -> Z -> Z := fun x y => if (x =? a) && (y =? b) then v else f x y.
(* the column of the dual map for a position in a clique and a label *)
Definition column (g : graph) (d l : Z) : Z := d * nlab g + l.
Definition node_at (c : clique) (d : Z) : Z := nth (Z.to_nat d) (cnodes c) (-1).
Definition csize (c : clique) : Z := Z.of_nat (length (cnodes c)).

(* SegmMatcher.cpp:2881-2890: the share of one member *)
Definition setup_member (g : graph) (x : Z -> Z) (c : clique) (avg rem : Z) (st : duals) (d : Z) : duals :=
  let n := node_at c d in
  let lambda := if d <? rem then avg + 1 else avg in
  Duals (upd2 (dual st) (seen st) (column g d (x n)) lambda) (upd2 (height st) n (x n) (height st n (x n) + lambda)) (seen st).
(* SegmMatcher.cpp:2860-2892: one clique *)
Definition setup_clique (g : graph) (x : Z -> Z) (st : duals) (c : clique) : option duals :=
  let cost := ccost c (map x (cnodes c)) in
  ensure (0 <=? cost)
    (let st' := fold_left (setup_member g x c (cost / csize c) (cost mod csize c)) (zrange 0 (csize c)) st in
     Some (Duals (dual st') (height st') (seen st' + 1))).
(* SegmMatcher.cpp:2854-2893: one node *)
Definition setup_node (g : graph) (x : Z -> Z) (st : duals) (i : Z) : option duals :=
  let h := fold_left (fun h l => upd2 h i l (h i l + unary g i l)) (zrange 0 (nlab g)) (height st) in
  ofold (setup_clique g x) (owned g i) (Duals (dual st) h (seen st)).
(* SegmMatcher.cpp:2838-2895 *)
Definition setup (g : graph) (x : Z -> Z) : option duals :=
  ofold (setup_node g x) (gnodes g) (Duals (fun _ _ => 0) (fun _ _ => 0) 0).

(* all cliques, in the order in which initMinimizer, setupPrimalDual and solvePrimalDual number them
   (SegmMatcher.cpp:2805-2835, 2854-2893, 2920-2961) *)
Definition all_cliques (g : graph) : list clique := flat_map (owned g) (gnodes g).

(* __builtin_ctz: how many zero bits are below the lowest one *)
Fixpoint ctz_pos (p : positive) : Z := match p with xO q => 1 + ctz_pos q | _ => 0 end.
Definition ctz (z : Z) : Z := match z with Zpos p => ctz_pos p | _ => 0 end.
Definition gray (a : Z) : Z := Z.lxor a (Z.shiftr a 1).

(* SegmMatcher.cpp:2947-2957: one step of the walk over all assignments: buffer of labels, last code, table *)
Definition table_step (n : Z) (cost : list Z -> Z) (cur fus : Z -> Z) (st : (Z -> Z) * Z * (Z -> Z)) (a : Z) : (Z -> Z) * Z * (Z -> Z) :=
  let '(buf, last, table) := st in
  let code := gray a in
  let diff := Z.lxor code last in
  let k := ctz diff in
  let buf' := if Z.land diff code =? 0 then upd buf k (cur k) else upd buf k (fus k) in
  (buf', code, upd table code (cost (map buf' (zrange 0 n)))).
(* SegmMatcher.cpp:2942-2957; what the table held before is [old] *)
Definition energy_table (n : Z) (cost : list Z -> Z) (cur fus : Z -> Z) (old : Z -> Z) : Z -> Z :=
  snd (fold_left (table_step n cost cur fus) (zrange 1 (2 ^ n - 1)) (cur, 0, upd old 0 (cost (map cur (zrange 0 n))))).
(* 3rdparty/sospd/.../submodular-functions.hpp:284-295: one step; running sum, last code, table *)
Definition linear_step (psi1 psi2 : Z -> Z) (st : Z * Z * (Z -> Z)) (a : Z) : Z * Z * (Z -> Z) :=
  let '(sum, last, table) := st in
  let code := gray a in
  let diff := Z.lxor code last in
  let k := ctz diff in
  let sum' := if Z.land code diff =? 0 then sum + (psi2 k - psi1 k) else sum + (psi1 k - psi2 k) in
  (sum', code, upd table code (table code - sum')).
(* submodular-functions.hpp:275-297, sospd::SubtractLinear *)
Definition subtract_linear (n : Z) (table psi1 psi2 : Z -> Z) : Z -> Z :=
  let sum := fold_left (fun s i => s + psi2 i) (zrange 0 n) 0 in
  snd (fold_left (linear_step psi1 psi2) (zrange 1 (2 ^ n - 1)) (sum, 0, upd table 0 (table 0 - sum))).

(* SegmMatcher.cpp:2926-2959: the table of one clique, whose row in the dual map is [r], with its assertion of tightness *)
Definition clique_table (g : graph) (x : Z -> Z) (alpha : Z) (st : duals) (r : Z) (c : clique) (old : Z -> Z) : option (Z -> Z) :=
  let cur d := x (node_at c d) in
  let current d := dual st r (column g d (cur d)) in
  let fusion d := dual st r (column g d alpha) in
  let t := subtract_linear (csize c) (energy_table (csize c) (ccost c) cur (fun _ => alpha) old) fusion current in
  ensure (t 0 =? 0) (Some t).
(* the cliques with their rows *)
Definition numbered {A} (k : Z) (l : list A) : list (Z * A) := combine (zseq k (length l)) l.

(* SegmMatcher.cpp:2772-2801, calcResegmMoveCosts (with SEGMMATCH_CONFIG_USE_TEMPORAL_U_CST 0) *)
Definition move_cost (g : graph) (x : Z -> Z) (alpha i : Z) : Z :=
  if x i =? alpha then 0 else unary g i alpha - unary g i (x i).
(* SegmMatcher.cpp:2969-2988: the costs of one node for keeping its label and for taking the new one *)
Definition unary_terms (g : graph) (x : Z -> Z) (alpha : Z) (st : duals) (i : Z) : Z * Z :=
  let t := fold_left (fun t p => t + (dual st (fst p) (column g (snd p) (x i)) - dual st (fst p) (column g (snd p) alpha))) (members g i) (- move_cost g x alpha i) in
  if 0 <? t then (t, 0) else (0, - t).

(* what the solver is asked to minimize: the terms of the nodes, and a table for each clique *)
Record problem := Problem { terms : Z -> Z * Z; tables : list (clique * (Z -> Z)) }.
(* SegmMatcher.cpp:2896-2992; [old] is what the tables held before *)
Definition pose (g : graph) (x : Z -> Z) (alpha : Z) (st : duals) (old : Z -> Z -> Z) : option problem :=
  obind (omap (fun rc => obind (clique_table g x alpha st (fst rc) (snd rc) (old (fst rc))) (fun t => Some (snd rc, t))) (numbered 0 (all_cliques g))) (fun ts =>
  Some (Problem (unary_terms g x alpha st) ts)).

(* SegmMatcher.cpp:2999-3018: the labels after the move *)
Definition relabel (g : graph) (x : Z -> Z) (alpha : Z) (answer : Z -> Z) : Z -> Z :=
  fold_left (fun x i => if (answer i =? 1) && negb (x i =? alpha) then upd x i alpha else x) (gnodes g) x.

(* SegmMatcher.cpp:3023-3030: the reparametrization of the solver goes to the new label *)
Definition add_phi (g : graph) (alpha : Z) (phi : Z -> Z -> Z) (st : duals) (rc : Z * clique) : duals :=
  fold_left (fun st d => let n := node_at (snd rc) d in
    Duals (upd2 (dual st) (fst rc) (column g d alpha) (dual st (fst rc) (column g d alpha) + phi (fst rc) d))
          (upd2 (height st) n alpha (height st n alpha + phi (fst rc) d)) (seen st)) (zrange 0 (csize (snd rc))) st.
(* SegmMatcher.cpp:3055-3063: one member *)
Definition correct_member (g : graph) (x : Z -> Z) (r : Z) (c : clique) (avg rem : Z) (st : duals) (d : Z) : duals :=
  let n := node_at c d in
  let k := column g d (x n) in
  let h1 := upd2 (height st) n (x n) (height st n (x n) - dual st r k) in
  let lambda := dual st r k + avg + (if d <? rem then 1 else 0) in
  Duals (upd2 (dual st) r k lambda) (upd2 h1 n (x n) (h1 n (x n) + lambda)) (seen st).
(* SegmMatcher.cpp:3033-3065: one clique is made tight again; the division truncates. The assertion on the sign of the
   correction is left out: it depends on the solver. *)
Definition correct (g : graph) (x : Z -> Z) (st : duals) (rc : Z * clique) : duals :=
  let r := fst rc in let c := snd rc in
  let sum := fold_left (fun s d => s + dual st r (column g d (x (node_at c d)))) (zrange 0 (csize c)) 0 in
  let correction := ccost c (map x (cnodes c)) - sum in
  let q := Z.quot correction (csize c) in let m := Z.rem correction (csize c) in
  let avg := if m <? 0 then q - 1 else q in let rem := if m <? 0 then m + csize c else m in
  fold_left (correct_member g x r c avg rem) (zrange 0 (csize c)) st.
(* SegmMatcher.cpp:2999-3066 *)
Definition finish (g : graph) (x : Z -> Z) (alpha : Z) (answer : Z -> Z) (phi : Z -> Z -> Z) (st : duals) : (Z -> Z) * duals :=
  let x' := relabel g x alpha answer in
  let cs := numbered 0 (all_cliques g) in
  (x', fold_left (correct g x') cs (fold_left (add_phi g alpha phi) cs st)).
