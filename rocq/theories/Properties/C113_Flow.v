(* C113: augmenting paths and minimum cuts in the flow graph of cliques. *)
From Coq Require Import ZArith List Bool Lia.
From Verif Require Import Lib.Grid Model.Submodular Spec.Submodular Model.Clique Spec.Clique Model.Flow Spec.Flow Proofs.Submodular Proofs.CliqueBound Proofs.Flow Proofs.FlowCut Spec.FlowPath.
Import ListNotations.
Open Scope Z_scope.

(* four nodes; one clique of all of them, one of the nodes 1 and 2; s can give 5 to node 0, node 3 can give 4 to t *)
Definition four : net := {| nnodes := 4; ncl := 2; csize := fun c => if c =? 0 then 4 else 2; members := fun c i => if c =? 0 then i else i + 1; c_si := fun j => if j =? 0 then 5 else 0; c_it := fun j => if j =? 3 then 4 else 0 |}.
Definition one4 : table := fun S => if (S =? 0) || (S =? 15) then 0 else 1.
Definition one2 : table := fun S => if (S =? 0) || (S =? 3) then 0 else 1.
Definition begin : flow := {| cl := fun c => {| alpha := if c =? 0 then one4 else one2; ci := fun _ => 0; tight := fun u => if c =? 0 then 15 else 3 |}; phi_si := fun _ => 0; phi_it := fun _ => 0 |}.
(* the trees s, 0, 1 and t, 3, 2 *)
Definition up : Z -> Z := fun x => if x =? 0 then 4 else if x =? 1 then 0 else if x =? 2 then 3 else 5.
Definition up_arc : Z -> arc := fun x => if x =? 1 then (1, 0, 0) else (2, 0, 3).
Lemma four_wf : wf four.
Proof.
  split; [cbn; lia|]. split; [cbn; lia|]. cbn. intros c Hc. destruct (Z.eqb_spec c 0); (split; [lia|]); intros i Hi; lia.
Qed.
Lemma all16 S : within 4 S -> In S (zrange 0 16).
Proof. intros [A B]. change (2 ^ 4) with 16 in B. apply in_zrange. lia. Qed.
Lemma all4 S : within 2 S -> In S (zrange 0 4).
Proof. intros [A B]. change (2 ^ 2) with 4 in B. apply in_zrange. lia. Qed.
Example C113_ex_normal : all_normal four begin.
Proof.
  intros c Hc. cbn in Hc. assert (X : c = 0 \/ c = 1) by lia. destruct X as [-> | ->]; cbn.
  - split; [apply check_iff; [lia|reflexivity]|]. split; [|split; reflexivity]. intros S _. unfold one4. destruct (_ || _); lia.
  - split; [apply check_iff; [lia|reflexivity]|]. split; [|split; reflexivity]. intros S _. unfold one2. destruct (_ || _); lia.
Qed.
Lemma four_roomy : roomy 100 four begin.
Proof. intros c S _ _. cbn. destruct (c =? 0); [unfold one4|unfold one2]; destruct (_ || _); lia. Qed.
Lemma four_tree : proper four (1, 1, 1) /\ chain up 4 (tail four (true, (1, 1, 1))) [1] 0 /\ chain up 5 (head four (true, (1, 1, 1))) [2] 3 /\ on_tree four up up_arc [1] /\ on_tree four up up_arc [2].
Proof.
  split; [|split; [|split; [|split]]].
  - split; [cbn; lia|]. split; [cbn; lia|]. split; [exists 0; cbn; lia|cbn; lia].
  - apply chain_step; [discriminate|]. apply chain_end. reflexivity.
  - apply chain_step; [discriminate|]. apply chain_end. reflexivity.
  - intros z [<-|[]]. split; [|split; reflexivity]. split; [cbn; lia|]. split; [cbn; lia|]. split; [exists 1; cbn; lia|cbn; lia].
  - intros z [<-|[]]. split; [|split; reflexivity]. split; [cbn; lia|]. split; [cbn; lia|]. split; [exists 2; cbn; lia|cbn; lia].
Qed.

(* Augment: b is the least of what the arcs of the path let through and of the two terminals; the ASSERT fails exactly if it is not positive; otherwise, for every labelling, what is left drops by b,
   only the terminals at the ends of the path change, and each clique keeps the energy it tells. *)
Theorem C113_augment fuel top g parent parc fwd a fl ls xs lt xt : wf g -> roomy top g fl -> proper g a ->
  chain parent (nnodes g) (tail g (fwd, a)) ls xs -> chain parent (nnodes g + 1) (head g (fwd, a)) lt xt -> on_tree g parent parc ls -> on_tree g parent parc lt -> (length ls < fuel)%nat -> (length lt < fuel)%nat ->
  exists b r, augment fuel top g parent parc fwd a fl = Done r /\
  (forall p, In p (way fwd a parc ls lt) -> exists k, lets g fl p k /\ b <= k) /\ b <= c_si g xs - phi_si fl xs /\ b <= c_it g xt - phi_it fl xt /\
  ((exists p, In p (way fwd a parc ls lt) /\ lets g fl p b) \/ b = c_si g xs - phi_si fl xs \/ b = c_it g xt - phi_it fl xt) /\
  match r with
  | None => b <= 0
  | Some fl' => 0 < b /\ (forall L, residual g fl' L = residual g fl L - b) /\
      (forall j, phi_si fl' j = phi_si fl j + (if j =? xs then b else 0)) /\ (forall j, phi_it fl' j = phi_it fl j + (if j =? xt then b else 0)) /\
      (forall c S, 0 <= c < ncl g -> within (csize g c) S -> told (csize g c) (alpha (cl fl' c)) (ci (cl fl' c)) S = told (csize g c) (alpha (cl fl c)) (ci (cl fl c)) S) /\
      (current g fl -> current g fl')
  end.
Proof.
  intros W R P Cs Ct Ts Tt Fs Ft. destruct (augment_ok fuel top g parent parc fwd a fl ls xs lt xt W R P Cs Ct Ts Tt Fs Ft) as (b & r & E & A & B & C & D & M). exists b, r.
  split; [exact E|]. split; [exact A|]. split; [exact B|]. split; [exact C|]. split; [exact D|]. destruct r as [fl'|]; [|exact M]. destruct M as (M1 & _ & _ & M2 & M3 & M4 & M5 & M6).
  split; [exact M1|]. split; [exact M2|]. split; [exact M3|]. split; [exact M4|]. split; [|exact M5]. intros c S Hc WS. apply M6; assumption.
Qed.
Print Assumptions C113_augment.
Example C113_ex_augment : wf four /\ roomy 100 four begin /\ proper four (1, 1, 1) /\ chain up 4 (tail four (true, (1, 1, 1))) [1] 0 /\ chain up 5 (head four (true, (1, 1, 1))) [2] 3 /\
  match augment 2 100 four up up_arc true (1, 1, 1) begin with Done (Some f) => (phi_si f 0, phi_it f 3, alpha (cl f 1) 1, alpha (cl f 0) 1) = (1, 1, 0, 0) | _ => False end.
Proof.
  split; [exact four_wf|]. split; [exact four_roomy|]. split; [apply four_tree|]. split; [apply four_tree|]. split; [apply four_tree|]. vm_compute. reflexivity.
Qed.

(* Any number of augmentations along paths without shortcuts: the cliques stay nonnegative and submodular, their tight sets right, no terminal is exceeded, and labellings keep their differences of energy. *)
Theorem C113_history g fl fl' : wf g -> evolves g fl fl' -> all_normal g fl -> current g fl -> within_caps g fl ->
  all_normal g fl' /\ current g fl' /\ within_caps g fl' /\ (exists k, 0 <= k /\ forall L, residual g fl L = residual g fl' L + k) /\
  (forall c S, 0 <= c < ncl g -> within (csize g c) S -> told (csize g c) (alpha (cl fl' c)) (ci (cl fl' c)) S = told (csize g c) (alpha (cl fl c)) (ci (cl fl c)) S).
Proof. exact (evolves_ok g fl fl'). Qed.
Print Assumptions C113_history.
(* With a shortcut it is not so: the path through a clique twice takes the bottleneck twice from one set. *)
Theorem C113_shortcut_refuted : exists g fl fuel top parent parc fwd a ls xs lt xt,
  wf g /\ roomy top g fl /\ proper g a /\ chain parent (nnodes g) (tail g (fwd, a)) ls xs /\ chain parent (nnodes g + 1) (head g (fwd, a)) lt xt /\ on_tree g parent parc ls /\ on_tree g parent parc lt /\
  (length ls < fuel)%nat /\ (length lt < fuel)%nat /\ all_normal g fl /\
  match augment fuel top g parent parc fwd a fl with Done (Some fl') => exists c S, 0 <= c < ncl g /\ within (csize g c) S /\ alpha (cl fl' c) S < 0 | _ => False end.
Proof.
  exists four, begin, 2%nat, 100, up, up_arc, true, (1, 1, 1), [1], 0, [2], 3. split; [exact four_wf|]. split; [exact four_roomy|].
  split; [apply four_tree|]. split; [apply four_tree|]. split; [apply four_tree|]. split; [apply four_tree|]. split; [apply four_tree|]. split; [cbn; lia|]. split; [cbn; lia|]. split; [exact C113_ex_normal|].
  assert (X : match augment 2 100 four up up_arc true (1, 1, 1) begin with Done (Some f) => alpha (cl f 0) 5 <? 0 | _ => false end = true) by (vm_compute; reflexivity).
  destruct (augment _ _ _ _ _ _ _ _) as [[f|]| | |]; try discriminate. exists 0, 5. split; [cbn; lia|]. split; [split; reflexivity || discriminate|]. apply Z.ltb_lt. exact X.
Qed.
Print Assumptions C113_shortcut_refuted.

(* A cut through which nothing goes has nothing left, and no labelling has less. *)
Theorem C113_certificate g fl L : wf g -> all_normal g fl -> current g fl -> within_caps g fl -> closed_cut g fl L -> residual g fl L = 0 /\ forall L', 0 <= residual g fl L'.
Proof. exact (certificate g fl L). Qed.
Print Assumptions C113_certificate.

(* UpperBoundCliques, IBFSInit, augmentations, and a cut through which nothing goes: its labels have the least energy of all labellings, for the submodular tables G that the bound made of the energies. *)
Theorem C113_minimum z ub g fixed energies G fl psi fl1 fl2 L : wf g -> (forall c, 0 <= c < ncl g -> ub (csize g c) (energies c) = Done (G c) /\ submodular (csize g c) (G c)) -> (forall j, phi_si fl j = 0 /\ phi_it fl j = 0) ->
  bound_all z ub g fixed energies (zrange 0 (ncl g)) fl psi = Done (Some fl1) -> evolves g (init_all g fl1) fl2 -> closed_cut g fl2 L ->
  let E L := cut (nnodes g) (c_si g) (c_it g) L + cliques (ncl g) (csize g) (members g) (fun c => freed (csize g c) (members g c) fixed (G c)) L in
  forall L', E L <= E L'.
Proof. exact (minimum z ub g fixed energies G fl psi fl1 fl2 L). Qed.
Print Assumptions C113_minimum.
(* the same with the energies of ComputeEnergy, without fixed nodes *)
Theorem C113_least z ub g energies G fl psi fl1 fl2 constant labels : wf g -> (forall c, 0 <= c < ncl g -> ub (csize g c) (energies c) = Done (G c) /\ submodular (csize g c) (G c)) -> (forall j, phi_si fl j = 0 /\ phi_it fl j = 0) ->
  bound_all z ub g None energies (zrange 0 (ncl g)) fl psi = Done (Some fl1) -> evolves g (init_all g fl1) fl2 -> closed_cut g fl2 (fun j => labels j =? 1) ->
  forall labels', compute_energy g constant G labels <= compute_energy g constant G labels'.
Proof.
  intros W U Z0 B V D labels'. assert (S : forall c, 0 <= c < ncl g -> 0 <= csize g c < 32) by (intros c Hc; destruct W as (_ & _ & W); destruct (W c Hc); lia). rewrite !compute_energy_ok by exact S.
  assert (X := minimum z ub g None energies G fl psi fl1 fl2 _ W U Z0 B V D (fun j => labels' j =? 1)). cbv zeta in X. unfold freed in X. change (cliques (ncl g) (csize g) (members g) (fun c => G c)) with (cliques (ncl g) (csize g) (members g) G) in X. lia.
Qed.
Print Assumptions C113_least.
(* UpperBoundCliques never fails for submodular bounds and tells their energy; it leaves normal cliques. *)
Theorem C113_bound z ub g fixed energies G fl psi : wf g -> (forall c, 0 <= c < ncl g -> ub (csize g c) (energies c) = Done (G c) /\ submodular (csize g c) (G c)) ->
  (forall j, phi_si fl j = 0 /\ phi_it fl j = 0) ->
  exists fl', bound_all z ub g fixed energies (zrange 0 (ncl g)) fl psi = Done (Some fl') /\ all_normal g fl' /\ current g fl' /\
  exists k, forall L, residual g fl' L = cut (nnodes g) (c_si g) (c_it g) L + cliques (ncl g) (csize g) (members g) (fun c => freed (csize g c) (members g c) fixed (G c)) L - k.
Proof. exact (bound_net z ub g fixed energies G fl psi). Qed.
Print Assumptions C113_bound.
Theorem C113_init g fl : 0 <= nnodes g -> cl (init_all g fl) = cl fl /\ within_caps g (init_all g fl) /\ exists k, forall L, residual g fl L = residual g (init_all g fl) L + k.
Proof. exact (init_all_ok g fl). Qed.
Print Assumptions C113_init.

(* two nodes, an edge of weight 3 from 1 to 0 *)
Definition two : net := {| nnodes := 2; ncl := 1; csize := fun _ => 2; members := fun _ i => i; c_si := fun j => if j =? 0 then 0 else 5; c_it := fun j => if j =? 0 then 7 else 0 |}.
Definition edge : table := fun S => if S =? 2 then 3 else 0.
Definition zero_flow : flow := {| cl := fun _ => {| alpha := fun _ => 0; ci := fun _ => 0; tight := fun _ => 3 |}; phi_si := fun _ => 0; phi_it := fun _ => 0 |}.
Definition exact_bound (n : Z) (t : table) : run table := Done t.
Definition two1 : flow := match bound_all None exact_bound two None (fun _ => edge) (zrange 0 1) zero_flow (fun _ => 0) with Done (Some f) => f | _ => zero_flow end.
Definition up2 : Z -> Z := fun x => 3 - x.
Definition two2 : flow := match augment 1 100 two up2 (fun _ => (0, 0, 0)) true (1, 0, 0) (init_all two two1) with Done (Some f) => f | _ => zero_flow end.
Example C113_ex_two : wf two /\ bound_all None exact_bound two None (fun _ => edge) (zrange 0 1) zero_flow (fun _ => 0) = Done (Some two1) /\ submodular 2 edge /\
  evolves two (init_all two two1) two2 /\ closed_cut two two2 (fun j => j =? 1) /\
  compute_energy two 0 (fun _ => edge) (fun j => j) = 3.
Proof.
  split; [split; [cbn; lia|]; split; [cbn; lia|]; cbn; intros c Hc; split; [lia|]; intros; lia|]. split; [|split; [|split; [|split]]].
  - assert (X : match bound_all None exact_bound two None (fun _ => edge) (zrange 0 1) zero_flow (fun _ => 0) with Done (Some _) => true | _ => false end = true) by (vm_compute; reflexivity).
    unfold two1. destruct (bound_all _ _ _ _ _ _ _ _) as [[f|]| | |]; [reflexivity|discriminate..].
  - apply check_iff; [lia|reflexivity].
  - assert (X : match augment 1 100 two up2 (fun _ => (0, 0, 0)) true (1, 0, 0) (init_all two two1) with Done (Some _) => true | _ => false end = true) by (vm_compute; reflexivity).
    apply (onward two _ two2 two2 1 100 up2 (fun _ => (0, 0, 0)) true (1, 0, 0) [] 1 [] 0).
    + intros c S Hc WS. cbn in Hc, WS. replace c with 0 by lia. apply all4 in WS. cbn in WS. repeat (destruct WS as [<-|WS]; [vm_compute; discriminate|]). destruct WS.
    + split; [cbn; lia|]. split; [cbn; lia|]. split; [exists 1; cbn; lia|cbn; lia].
    + apply chain_end. reflexivity.
    + apply chain_end. reflexivity.
    + intros z [].
    + intros z [].
    + cbn. lia.
    + cbn. lia.
    + constructor; [constructor|constructor].
    + unfold two2. destruct (augment _ _ _ _ _ _ _ _) as [[f|]| | |]; [reflexivity|discriminate..].
    + apply still.
  - split.
    + intros j Hj. cbn in Hj. assert (X : j = 0 \/ j = 1) by lia. destruct X as [-> | ->]; vm_compute; reflexivity.
    + intros c u v Hc Hu Hv. cbn in Hc, Hu, Hv. replace c with 0 by lia. assert (X : u = 0 \/ u = 1) by lia. assert (Y : v = 0 \/ v = 1) by lia. destruct X as [-> | ->], Y as [-> | ->]; cbn; try discriminate. intros _ _. vm_compute. reflexivity.
  - vm_compute. reflexivity.
Qed.

(* ComputeEnergy: the constant, c_it of the nodes with label 1 and c_si of all others, and each clique at the set of its nodes with label 1. *)
Theorem C113_energy g constant tables labels : (forall c, 0 <= c < ncl g -> 0 <= csize g c < 32) -> compute_energy g constant tables labels =
  constant + cut (nnodes g) (c_si g) (c_it g) (fun j => labels j =? 1) + cliques (ncl g) (csize g) (members g) tables (fun j => labels j =? 1).
Proof. exact (compute_energy_ok g constant tables labels). Qed.
Print Assumptions C113_energy.
Example C113_ex_energy : compute_energy four 10 (fun c => if c =? 0 then one4 else one2) (fun j => if j =? 3 then 1 else if j =? 2 then 2 else 0) = 20.
Proof. vm_compute. reflexivity. Qed.

(* From ArcsBegin to ArcsEnd, each clique of the node with each index, once and in order; the arc of the node to itself is among them. *)
Theorem C113_arcs size cs fuel : (forall c, In c cs -> 1 <= size c) -> (length (all_arcs size cs) < fuel)%nat -> arcs_from fuel size cs 0 = Done (all_arcs size cs).
Proof. exact (arcs_all size cs fuel). Qed.
Print Assumptions C113_arcs.
Example C113_ex_arcs : arcs_from 9 (fun c => if c =? 0 then 3 else 2) [0; 4] 0 = Done [(0, 0); (0, 1); (0, 2); (4, 0); (4, 1)].
Proof. reflexivity. Qed.
(* Reverse: source and target change places, and Reverse of it is the arc itself, for cliques of different nodes. *)
Theorem C113_reverse g a : wf g -> proper g a -> (forall i j, 0 <= i < csize g (clique_of a) -> 0 <= j < csize g (clique_of a) -> members g (clique_of a) i = members g (clique_of a) j -> i = j) ->
  proper g (reverse g a) /\ source (reverse g a) = target g a /\ target g (reverse g a) = source a /\ clique_of (reverse g a) = clique_of a /\ reverse g (reverse g a) = a /\ (forall d, ends g d (reverse g a) = ends g (negb d) a).
Proof. exact (reverse_ok g a). Qed.
Print Assumptions C113_reverse.
Example C113_ex_reverse : reverse four (1, 1, 1) = (2, 1, 0).
Proof. reflexivity. Qed.
(* operator<: arcs of the same clique are never ordered, so that different arcs need not be. *)
Theorem C113_less_refuted : exists s p i j, i <> j /\ arc_less s p i s p j = Some false /\ arc_less s p j s p i = Some false.
Proof. exists 1, 0, 0, 2. split; [discriminate|split; reflexivity]. Qed.
Print Assumptions C113_less_refuted.
Theorem C113_less s p i q j : arc_less s p i s q j = Some (p <? q).
Proof. unfold arc_less. rewrite Z.eqb_refl, Z.ltb_irrefl. destruct (Z.eqb_spec p q) as [->|]; [rewrite Z.ltb_irrefl; reflexivity|reflexivity]. Qed.
Print Assumptions C113_less.
(* ComputeMinCut: nodes of the tree of s get 1, of t 0, and free nodes the side that could not grow; orphans fail the ASSERT. *)
Theorem C113_labels forward s : (min_cut forward s = Some 1 <-> s = St \/ (s = Nt /\ forward = false)) /\ (min_cut forward s = Some 0 <-> s = Tt \/ (s = Nt /\ forward = true)) /\ (min_cut forward s = None <-> s = S_orphan \/ s = T_orphan).
Proof. destruct forward, s; cbn; intuition (discriminate || congruence). Qed.
Print Assumptions C113_labels.
