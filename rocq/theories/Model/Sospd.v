(* Multilabel energies and the primal-dual loop over them: 3rdparty/sospd/include/litiv/3rdparty/sospd/multilabel-energy.hpp and sospd.hpp (MultilabelEnergy, PottsClique, SoSPD). Values are unbounded integers
   (REAL is int in this project, see C85 for the copy of this loop in SegmMatcher). The array m_heights is not kept: a height is the sum that ComputeHeight forms. Not modelled: printing, the value LowerBound prints. *)
From Coq Require Import ZArith List Bool.
From Verif Require Import Lib.Grid.
From Verif Require Model.PrimalDual.
Import ListNotations.
Open Scope Z_scope.

(* MultilabelEnergy, multilabel-energy.hpp lines 72-77: labels, variables, constant, unary costs, cliques with their size, nodes and energy *)
Record mle : Type := { nl : Z; nv : Z; con : Z; un : Z -> Z -> Z; nc : Z; size : Z -> Z; node : Z -> Z -> Z; cost : Z -> list Z -> Z }.
(* lines 174-181 *)
Definition new_mle (labels : Z) : mle := {| nl := labels; nv := 0; con := 0; un := fun _ _ => 0; nc := 0; size := fun _ => 0; node := fun _ _ => 0; cost := fun _ _ => 0 |}.
(* addVar, lines 183-191: the first one, and the energy *)
Definition add_var (e : mle) (i : Z) : Z * mle :=
  (nv e, {| nl := nl e; nv := nv e + i; con := con e; un := fun v l => if (nv e <=? v) && (v <? nv e + i) then 0 else un e v l; nc := nc e; size := size e; node := node e; cost := cost e |}).
(* addConstantTerm, lines 193-196 *)
Definition add_constant (e : mle) (c : Z) : mle := {| nl := nl e; nv := nv e; con := con e + 1; un := un e; nc := nc e; size := size e; node := node e; cost := cost e |}.
(* addUnaryTerm, lines 198-204; None is a failed ASSERT *)
Definition add_unary (e : mle) (i : Z) (coeffs : list Z) : option mle :=
  if (i <? nv e) && (Z.of_nat (length coeffs) =? nl e) then
    Some {| nl := nl e; nv := nv e; con := con e; un := fun v l => if (v =? i) && (0 <=? l) && (l <? nl e) then un e v l + nth (Z.to_nat l) coeffs 0 else un e v l; nc := nc e; size := size e; node := node e; cost := cost e |}
  else None.
(* addClique, lines 206-218 *)
Definition add_clique (e : mle) (k : Z) (nodes : Z -> Z) (energy : list Z -> Z) : option mle :=
  if k =? 1 then add_unary e (nodes 0) (map (fun l => energy [l]) (zrange 0 (nl e)))
  else Some {| nl := nl e; nv := nv e; con := con e; un := un e; nc := nc e + 1; size := fun c => if c =? nc e then k else size e c; node := fun c => if c =? nc e then nodes else node e c; cost := fun c => if c =? nc e then energy else cost e c |}.
(* computeEnergy, lines 220-236 *)
Definition buffer (k : Z) (nodes labels : Z -> Z) : list Z := map (fun i => labels (nodes i)) (zrange 0 k).
Definition energy_of (e : mle) (labels : Z -> Z) : Z :=
  fold_left (fun s i => s + un e i (labels i)) (zrange 0 (nv e)) (fold_left (fun s c => s + cost e c (buffer (size e c) (node e c) labels)) (zrange 0 (nc e)) 0).
(* PottsClique::energy, lines 150-157 *)
Fixpoint potts_loop (same diff l : Z) (rest : list Z) : Z := match rest with [] => same | x :: rest => if negb (x =? l) then diff else potts_loop same diff l rest end.
Definition potts (same diff : Z) (labels : list Z) : Z := potts_loop same diff (hd 0 labels) (List.tl labels).

(* SoSPD, sospd.hpp lines 119-140: the labels and the duals (clique, place, label); lines 147-174: the labels of a new solver are 0 *)
Record sp : Type := { lab : Z -> Z; lam : Z -> Z -> Z -> Z }.
Definition fresh : Z -> Z := fun _ => 0.
(* GetLabel, lines 176-179 *)
Definition get_label (st : sp) (i : Z) : Z := lab st i.
(* InitialLabeling, lines 181-193, one variable: top is numeric_limits::max(), old the label before *)
Definition best_label (top old n : Z) (u : Z -> Z) : Z := snd (fold_left (fun st l => if u l <? fst st then (u l, l) else st) (zrange 0 n) (top, old)).
Definition initial_labels (top : Z) (e : mle) (old : Z -> Z) : Z -> Z := fun i => if (0 <=? i) && (i <? nv e) then best_label top (old i) (nl e) (un e i) else old i.
(* InitialDual, lines 195-229: division and remainder of C++; None is a failed ASSERT *)
Definition share (k v i : Z) : Z := Z.quot v k + (if i <? Z.rem v k then 1 else 0).
Definition initial_dual (e : mle) (labels : Z -> Z) : option (Z -> Z -> Z -> Z) :=
  if forallb (fun c => (size e c <? 32) && (0 <=? cost e c (buffer (size e c) (node e c) labels))) (zrange 0 (nc e)) then
    Some (fun c i l => if l =? labels (node e c i) then share (size e c) (cost e c (buffer (size e c) (node e c) labels)) i else 0)
  else None.
(* InitialNodeCliqueList and ComputeHeight, lines 231-246 and 318-325 *)
Definition clique_list (e : mle) (i : Z) : list (Z * Z) := flat_map (fun c => flat_map (fun j => if node e c j =? i then [(c, j)] else []) (zrange 0 (size e c))) (zrange 0 (nc e)).
Definition height (e : mle) (dual : Z -> Z -> Z -> Z) (i x : Z) : Z := fold_left (fun r p => r + dual (fst p) (snd p) x) (clique_list e i) (un e i x).
(* ComputeHeightDiff, lines 327-335 *)
Definition height_diff (e : mle) (dual : Z -> Z -> Z -> Z) (i l1 l2 : Z) : Z := fold_left (fun r p => r + (dual (fst p) (snd p) l1 - dual (fst p) (snd p) l2)) (clique_list e i) (un e i l1 - un e i l2).
(* PreEditDual, lines 248-316, the table of clique c before the bound; old is what it held *)
Definition move_table (e : mle) (st : sp) (fus : Z -> Z) (old : Z -> Z) (c : Z) : Z -> Z :=
  let cur j := lab st (node e c j) in let new j := fus (node e c j) in
  PrimalDual.subtract_linear (size e c) (PrimalDual.energy_table (size e c) (cost e c) cur new old) (fun j => lam st c j (new j)) (fun j => lam st c j (cur j)).
(* SetupAlphaEnergy, lines 350-363: E0 and E1 of AddUnaryTerm *)
Definition alpha_terms (d : Z) : Z * Z := if 0 <? d then (d, 0) else (0, - d).
(* UpdatePrimalDual, lines 365-393, for the labels and reparametrizations of the solver *)
Definition update (e : mle) (fus answer : Z -> Z) (ci : Z -> Z -> Z) (st : sp) : sp :=
  {| lab := fun i => if answer i =? 1 then fus i else lab st i; lam := fun c j l => if l =? fus (node e c j) then lam st c j l + ci c j else lam st c j l |}.
(* PostEditDual, lines 395-438; None is a failed ASSERT *)
Definition correction (e : mle) (st : sp) (c : Z) : Z :=
  cost e c (buffer (size e c) (node e c) (lab st)) - fold_left (fun s j => s + lam st c j (lab st (node e c j))) (zrange 0 (size e c)) 0.
Definition amend (k v i : Z) : Z :=
  let avg := Z.quot v k in let rest := Z.rem v k in
  if rest <? 0 then avg - 1 + (if i <? rest + k then 1 else 0) else avg + (if i <? rest then 1 else 0).
Definition post_edit (e : mle) (st : sp) : option sp :=
  if forallb (fun c => correction e st c <=? 0) (zrange 0 (nc e)) then
    Some {| lab := lab st; lam := fun c j l => if l =? lab st (node e c j) then lam st c j l + amend (size e c) (correction e st c) j else lam st c j l |}
  else None.
(* InitialFusionLabeling, lines 453-464: the proposal in range, and whether it differs *)
Definition clip (n l : Z) : Z := let l := if l <? 0 then 0 else l in if n <=? l then n - 1 else l.
Definition differs (n : Z) (labels fus : Z -> Z) : bool := existsb (fun i => negb (labels i =? fus i)) (zrange 0 n).
(* AlphaProposal, lines 487-493; HeightAlphaProposal, lines 466-485 *)
Definition alpha_label (iter n : Z) : Z := Z.rem iter n.
Definition s_capacity (h : Z -> Z -> Z) (n : Z) (labels : Z -> Z) (l : Z) : Z := fold_left (fun s i => let d := h i (labels i) - h i l in if 0 <? d then s + d else s) (zrange 0 n) 0.
Definition height_label (h : Z -> Z -> Z) (n labels_n : Z) (labels : Z -> Z) : Z :=
  snd (fold_left (fun st l => if fst st <? s_capacity h n labels l then (s_capacity h n labels l, l) else st) (zrange 0 labels_n) (0, 0)).
(* the loop of Solve, lines 496-527: rounds done, m_iter, and the last state; a round is PreEditDual, the solver, UpdatePrimalDual and PostEditDual, None if it fails *)
Fixpoint solve (niters : nat) (e : mle) (propose : Z -> sp -> Z -> Z) (round : (Z -> Z) -> sp -> option sp) (iter : Z) (st : sp) : option (Z * sp) :=
  match niters with
  | O => Some (iter, st)
  | S m => let fus i := clip (nl e) (propose iter st i) in
           if negb (differs (nv e) (lab st) fus) then Some (iter, st)
           else match round fus st with None => None | Some st' => solve m e propose round (iter + 1) st' end
  end.
