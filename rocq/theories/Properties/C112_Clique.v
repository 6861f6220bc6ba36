(* C112: cliques of the flow graph: capacities, pushes, tight sets, bounds; terminal weights. *)
From Coq Require Import ZArith List Bool Lia.
From Verif Require Import Lib.Grid Model.Submodular Spec.Submodular Model.Clique Spec.Clique Proofs.Submodular Proofs.SubmodularUpper Proofs.Clique Proofs.CliqueTight Proofs.CliqueBound.
Import ListNotations.
Open Scope Z_scope.

Definition values (l : list Z) (s : Z) : Z := nth (Z.to_nat s) l 0.
Definition seen (f : Z -> Z) (l : list Z) : list Z := map f l.
Definition eight : list Z := [0; 1; 2; 3; 4; 5; 6; 7].
(* twice the edges cut in a triangle, and its clique before any push *)
Definition cut3 : table := values [0; 2; 2; 2; 2; 2; 2; 0].
Definition start : clique := {| alpha := cut3; ci := fun _ => 0; tight := fun _ => 7 |}.
Lemma all8 S : within 3 S -> In S eight.
Proof. unfold within. change (2 ^ 3) with 8. intros H. assert (S = 0 \/ S = 1 \/ S = 2 \/ S = 3 \/ S = 4 \/ S = 5 \/ S = 6 \/ S = 7) by lia. cbn. intuition auto. Qed.
Example C112_ex_normal : normal 3 cut3.
Proof.
  split; [apply check_iff; [lia|reflexivity]|]. split; [|split; reflexivity]. intros S W. apply all8 in W. cbn in W. repeat (destruct W as [<-|W]; [vm_compute; discriminate|]). destruct W.
Qed.

(* ExchangeCapacity is the least value of a set with u and without v; numeric_limits::max() is never the answer for want of a set. *)
Theorem C112_capacity top n f u v : 0 <= n < 32 -> 0 <= u < n -> 0 <= v < n -> u <> v -> (forall S, within n S -> f S <= top) -> exists c, exchange_capacity top n f u v = Done c /\ capacity n f u v c.
Proof. intros Hn Hu Hv. exact (capacity_ok n u v Hn Hu Hv top f). Qed.
Print Assumptions C112_capacity.
Example C112_ex_capacity : exchange_capacity (2 ^ 31 - 1) 3 (values [0; 9; 4; 5; 6; 3; 8; 0]) 0 1 = Done 3.
Proof. reflexivity. Qed.

(* Push moves delta from the sets with u alone to those with v alone, and touches nothing else; table and reparametrization together tell the same energy as before. *)
Theorem C112_push n c u v delta : 0 <= n < 32 -> 0 <= u < n -> 0 <= v < n -> exists c', push n c u v delta = Done c' /\
  (forall S, within n S -> alpha c' S = alpha c S + (if Z.testbit S v then delta else 0) - (if Z.testbit S u then delta else 0)) /\ contained n (alpha c') (alpha c) /\
  (forall S, within n S -> told n (alpha c') (ci c') S = told n (alpha c) (ci c) S).
Proof.
  intros Hn Hu Hv. destruct (push_ok n c u v delta Hn Hu Hv) as (c' & E & A & B & C & _). exists c'. split; [exact E|]. split; [|split; assumption].
  intros S W. rewrite A by exact W. unfold shift. lia.
Qed.
Print Assumptions C112_push.
Example C112_ex_push : match push 3 start 0 1 2 with Done c => (seen (alpha c) eight, seen (ci c) [0; 1; 2], seen (tight c) [0; 1; 2]) | _ => ([], [], []) end
  = ([0; 0; 4; 2; 2; 0; 4; 0], [2; -2; 0], [1; 7; 5]).
Proof. reflexivity. Qed.
(* A push of no more than the capacity keeps the table nonnegative, submodular, zero for none and all; one of more never does. *)
Theorem C112_push_keeps n c u v delta k c' : 0 <= n < 32 -> 0 <= u < n -> 0 <= v < n -> normal n (alpha c) -> capacity n (alpha c) u v k -> 0 <= delta -> push n c u v delta = Done c' ->
  (normal n (alpha c') <-> delta <= k).
Proof.
  intros Hn Hu Hv N K D E. destruct (push_ok n c u v delta Hn Hu Hv) as (c1 & E1 & A & _). replace c' with c1 in * by congruence. clear E E1. split.
  - intros (_ & P & _). destruct (shift_capacity n (alpha c) (alpha c1) u v delta k K A) as (_ & S & H & Q). assert (X := P S (proj1 H)). lia.
  - intros L. apply (shift_normal n (alpha c) (alpha c1) u v delta k); auto; lia.
Qed.
Print Assumptions C112_push_keeps.
(* It takes delta off the capacity from u to v and adds it to the capacity back. *)
Theorem C112_push_capacity n c u v delta c' : 0 <= n < 32 -> 0 <= u < n -> 0 <= v < n -> push n c u v delta = Done c' ->
  (forall k, capacity n (alpha c) u v k -> capacity n (alpha c') u v (k - delta)) /\ (forall k, capacity n (alpha c) v u k -> capacity n (alpha c') v u (k + delta)).
Proof.
  intros Hn Hu Hv E. destruct (push_ok n c u v delta Hn Hu Hv) as (c1 & E1 & A & _). replace c' with c1 in * by congruence. split; intros k K.
  - exact (shift_capacity n (alpha c) (alpha c1) u v delta k K A).
  - exact (shift_back n (alpha c) (alpha c1) u v delta k K A).
Qed.
Print Assumptions C112_push_capacity.
Example C112_ex_push_capacity : match push 3 start 0 1 1 with Done c => (exchange_capacity 9 3 (alpha c) 0 1, exchange_capacity 9 3 (alpha c) 1 0) | _ => (Running, Running) end = (Done 1, Done 3).
Proof. reflexivity. Qed.

(* ComputeMinTightSets keeps for each node the tight set of the smallest number, which is the least by inclusion; NonzeroCapacity then answers for ExchangeCapacity without a search. *)
Theorem C112_tight n f m : 1 <= n < 32 -> normal n f -> exists M, min_tight n f m = Done M /\ (forall u, 0 <= u < n -> least_tight n f u (M u)) /\ (forall i, ~ 0 <= i < n -> M i = m i).
Proof. intros H. apply tight_ok. lia. Qed.
Print Assumptions C112_tight.
Theorem C112_nonzero top n f m M u v c : 1 <= n < 32 -> normal n f -> min_tight n f m = Done M -> 0 <= u < n -> 0 <= v < n -> u <> v -> (forall S, within n S -> f S <= top) ->
  exchange_capacity top n f u v = Done c -> (nonzero_capacity M u v = true <-> 0 < c).
Proof.
  intros Hn N E Hu Hv D T X. destruct (tight_ok n f m ltac:(lia) N) as (M' & E' & L & _). replace M' with M in L by congruence.
  destruct (capacity_ok n u v ltac:(lia) Hu Hv top f D T) as (c' & X' & K). replace c' with c in K by congruence. apply (nonzero_ok n f u v M c N Hu Hv (L u Hu) K).
Qed.
Print Assumptions C112_nonzero.
Example C112_ex_tight : match min_tight 3 (values [0; 0; 4; 2; 2; 0; 4; 0]) (fun _ => 0) with Done M => (seen M [0; 1; 2; 3], nonzero_capacity M 0 1, nonzero_capacity M 1 0, nonzero_capacity M 2 0) | _ => ([], false, false, false) end
  = ([1; 7; 5; 0], false, true, true).
Proof. reflexivity. Qed.
(* Not so for an arc from a node to itself, which the arc iterator offers: full for NonzeroCapacity, empty for ExchangeCapacity. *)
Theorem C112_self_refuted : exists n f M u top, normal n f /\ min_tight n f (fun _ => 0) = Done M /\ (forall S, within n S -> f S <= top) /\ 0 <= u < n /\
  nonzero_capacity M u u = true /\ exchange_capacity top n f u u = Done 0.
Proof.
  exists 3, cut3. eexists. exists 0, 9. split; [exact C112_ex_normal|]. split; [reflexivity|]. split; [intros S W; apply all8 in W; cbn in W; repeat (destruct W as [<-|W]; [vm_compute; discriminate|]); destruct W|].
  split; [lia|]. split; reflexivity.
Qed.
Print Assumptions C112_self_refuted.
(* A clique of no node reads the table at 2^32 - 1. *)
Theorem C112_empty f m e c : min_tight 0 f m = Undefined /\ reset_clique 0 e c = Undefined.
Proof. split; reflexivity. Qed.
Print Assumptions C112_empty.

(* However many pushes, each within its capacity at its time: the table stays normal, the tight sets right, and the energy told is that of the beginning. *)
Theorem C112_history n c l : 0 <= n < 32 -> normal n (alpha c) -> (forall u, 0 <= u < n -> least_tight n (alpha c) u (tight c u)) -> legal n c l ->
  exists c', pushes n c l = Done c' /\ normal n (alpha c') /\ (forall u, 0 <= u < n -> least_tight n (alpha c') u (tight c' u)) /\
  (forall S, within n S -> told n (alpha c') (ci c') S = told n (alpha c) (ci c) S) /\ contained n (alpha c') (alpha c).
Proof. intros Hn. exact (pushes_ok n Hn l c). Qed.
Print Assumptions C112_history.
Example C112_ex_legal : legal 3 start [(0, 1, 2); (1, 0, 1)].
Proof.
  cbn [legal]. split; [lia|]. split; [lia|]. split; [lia|]. split.
  - right. exists 2. split; [|lia]. destruct (C112_capacity 9 3 cut3 0 1) as (c & E & K); try lia; [intros S W; apply all8 in W; cbn in W; repeat (destruct W as [<-|W]; [vm_compute; discriminate|]); destruct W|].
    change (exchange_capacity 9 3 cut3 0 1) with (Done 2) in E. replace c with 2 in K by congruence. exact K.
  - intros c1 E1. split; [lia|]. split; [lia|]. split; [lia|]. split; [|auto]. right.
    destruct (C112_push_capacity 3 start 0 1 2 c1 ltac:(lia) ltac:(lia) ltac:(lia) E1) as [_ B]. exists (2 + 2). split; [|lia]. apply B.
    destruct (C112_capacity 9 3 cut3 1 0) as (c & E & K); try lia; [intros S W; apply all8 in W; cbn in W; repeat (destruct W as [<-|W]; [vm_compute; discriminate|]); destruct W|].
    change (exchange_capacity 9 3 cut3 1 0) with (Done 2) in E. replace c with 2 in K by congruence. exact K.
Qed.
(* ResetAlpha: the table tells the energy of the clique by itself. *)
Theorem C112_reset_alpha n e c : 1 <= n < 32 -> exists c', reset_clique n e c = Done c' /\ same n (alpha c') e /\ contained n (alpha c') (alpha c) /\
  (forall S, within n S -> told n (alpha c') (ci c') S = e S).
Proof. exact (reset_ok n e c). Qed.
Print Assumptions C112_reset_alpha.

(* UpperBoundCliques, for a bound g that is submodular: no ASSERT fails; the table is normal and its tight sets right; with the flow to the sink, it tells g up to a constant, whatever the labels of the nodes. *)
Theorem C112_bound z ub n nodes energy c psi phi N g : 1 <= n < 32 -> (forall i, 0 <= i < n -> 0 <= nodes i < Z.of_nat N) -> ub n energy = Done g -> submodular n g ->
  exists c' psi' phi', bound_clique z ub n nodes None energy c psi phi = Done (Some (c', psi', phi')) /\
  normal n (alpha c') /\ (forall u, 0 <= u < n -> least_tight n (alpha c') u (tight c' u)) /\
  (forall S, within n S -> told n (alpha c') (ci c') S = g S - g 0) /\
  (forall L S, part n nodes L S -> alpha c' S - labelled N L phi' = g S - g 0 - labelled N L phi) /\
  (forall j, (forall i, 0 <= i < n -> nodes i <> j) -> phi' j = phi j).
Proof. exact (bound_ok z ub n nodes None energy c psi phi N g). Qed.
Print Assumptions C112_bound.
Example C112_ex_bound : match bound_clique None (upper_chen None) 3 (fun i => 2 * i) None (values [0; 3; 1; 9; 2; 4; 8; 5]) start (fun _ => 0) (fun _ => 0) with
  | Done (Some (c, psi, phi)) => (seen (alpha c) eight, seen (ci c) [0; 1; 2], seen psi [0; 1; 2], seen phi [0; 1; 2; 3; 4]) | _ => ([], [], [], []) end
  = ([0; 0; 0; 0; 9; 3; 8; 0], [5; 4; -4], [-5; -4; 4], [-5; 0; -4; 0; 4]).
Proof. vm_compute. reflexivity. Qed.
(* With the bounds of the code, the energy told is nowhere below that of the clique, both less their value for no node, and equal for all nodes. *)
Theorem C112_chen z n nodes energy c psi phi N : 1 <= n < 32 -> (forall i, 0 <= i < n -> 0 <= nodes i < Z.of_nat N) ->
  match bound_clique z (upper_chen z) n nodes None energy c psi phi with
  | Done (Some (c', _, _)) => normal n (alpha c') /\ (forall S, within n S -> energy S - energy 0 <= told n (alpha c') (ci c') S) /\ told n (alpha c') (ci c') (whole n) = energy (whole n) - energy 0
  | Exit => True | _ => False end.
Proof.
  intros Hn HN. assert (X := chen_ok z 1000 n energy ltac:(lia)). assert (U : upper_chen z n energy = chen_loop z 1000 n energy) by reflexivity. rewrite <- U in X. clear U. destruct (upper_chen z n energy) as [g| | |] eqn:E; try contradiction; [|unfold bound_clique; rewrite E; exact I].
  destruct X as (X1 & X2 & X3 & X4 & X5). destruct (C112_bound z (upper_chen z) n nodes energy c psi phi N g Hn HN E X1) as (c' & p' & f' & Q & A & _ & B & _). rewrite Q.
  split; [exact A|]. split; [intros S W; rewrite B by exact W; specialize (X2 S); lia|]. rewrite B by (apply within_whole; lia). lia.
Qed.
Print Assumptions C112_chen.
Theorem C112_cvpr14 z y rounds n nodes energy c psi phi N : 1 <= n < 32 -> (forall i, 0 <= i < n -> 0 <= nodes i < Z.of_nat N) ->
  match bound_clique z (upper_cvpr14 (Some y) rounds) n nodes None energy c psi phi with
  | Done (Some (c', _, _)) => normal n (alpha c') /\ (forall S, within n S -> energy S - energy 0 <= told n (alpha c') (ci c') S) /\ told n (alpha c') (ci c') (whole n) = energy (whole n) - energy 0
  | Running => True | _ => False end.
Proof.
  intros Hn HN. assert (X := cvpr14_ok y rounds n energy ltac:(lia)). destruct (upper_cvpr14 (Some y) rounds n energy) as [g| | |] eqn:E; try contradiction; [|unfold bound_clique; rewrite E; exact I].
  destruct X as (X1 & X2 & X3 & X4 & X5). destruct (C112_bound z (upper_cvpr14 (Some y) rounds) n nodes energy c psi phi N g Hn HN E X1) as (c' & p' & f' & Q & A & _ & B & _). rewrite Q.
  split; [exact A|]. split; [intros S W; rewrite B by exact W; specialize (X2 S); lia|]. rewrite B by (apply within_whole; lia). lia.
Qed.
Print Assumptions C112_cvpr14.
(* Fixed nodes: the same with their share taken out of the bound; a set of nodes none of which is fixed keeps its value. *)
Theorem C112_fixed z ub n nodes fixed energy c psi phi N g : 1 <= n < 32 -> (forall i, 0 <= i < n -> 0 <= nodes i < Z.of_nat N) -> ub n energy = Done g -> submodular n g ->
  exists c' psi' phi' h, bound_clique z ub n nodes (Some fixed) energy c psi phi = Done (Some (c', psi', phi')) /\
  normal n (alpha c') /\ (forall u, 0 <= u < n -> least_tight n (alpha c') u (tight c' u)) /\
  (forall S, within n S -> told n (alpha c') (ci c') S = h S - h 0) /\
  (forall S, within n S -> (forall i, 0 <= i < n -> Z.testbit S i = true -> fixed (nodes i) = false) -> h S = g S) /\
  (forall S T, within n S -> within n T -> (forall i, 0 <= i < n -> fixed (nodes i) = false -> Z.testbit S i = Z.testbit T i) -> h S = h T) /\
  (forall L S, part n nodes L S -> alpha c' S - labelled N L phi' = h S - h 0 - labelled N L phi).
Proof.
  intros Hn HN E Sub. destruct (bound_ok z ub n nodes (Some fixed) energy c psi phi N g Hn HN E Sub) as (c' & p' & f' & Q & A & B & C & D & _). exists c', p', f', (freed n nodes (Some fixed) g).
  split; [exact Q|]. split; [exact A|]. split; [exact B|]. split; [exact C|]. destruct (fixed_spec n nodes fixed ltac:(lia)) as [W F].
  assert (W32 : within 32 (fixed_set n nodes fixed)) by (destruct W as [W1 W2]; split; [exact W1|]; eapply Z.lt_trans; [exact W2|]; apply Z.pow_lt_mono_r; lia).
  destruct (SubmodularNormal.zero_marginal_ok n (fixed_set n nodes fixed) g ltac:(lia) W32) as [Z1 _]. unfold freed. split; [|split; [|exact D]].
  - intros S WS H. rewrite Z1 by exact WS. f_equal. apply bits_ext. intros b Hb. rewrite Z.ldiff_spec. destruct (Z.testbit S b) eqn:EB; [|reflexivity].
    destruct (Z_lt_le_dec b n); [|rewrite (bit_high n) in EB by assumption; discriminate]. rewrite F, H by (assumption || lia). reflexivity.
  - intros S T WS WT H. rewrite !Z1 by assumption. f_equal. apply bits_ext. intros b Hb. rewrite !Z.ldiff_spec.
    destruct (Z_lt_le_dec b n); [|rewrite !(bit_high n) by assumption; reflexivity]. rewrite F by lia. destruct (fixed (nodes b)) eqn:EF; [rewrite !andb_false_r; reflexivity|]. rewrite H by (assumption || lia). reflexivity.
Qed.
Print Assumptions C112_fixed.
(* The energy told is then no upper bound any more. *)
Theorem C112_fixed_refuted : exists n nodes fixed energy c psi phi, 1 <= n < 32 /\ submodular n energy /\
  match bound_clique None (upper_chen None) n nodes (Some fixed) energy c psi phi with Done (Some (c', _, _)) => exists S, within n S /\ told n (alpha c') (ci c') S < energy S - energy 0 | _ => False end.
Proof.
  exists 3, (fun i => i), (fun i => i =? 0), cut3, start, (fun _ => 0), (fun _ => 0). split; [lia|]. split; [exact (proj1 C112_ex_normal)|]. cbv -[Z.lt Z.le]. exists 1. split; [split; reflexivity || discriminate|reflexivity].
Qed.
Print Assumptions C112_fixed_refuted.

(* AddUnaryTerm: whatever the costs, the constant and the terminals tell the sum for both labels, and neither terminal goes down. *)
Theorem C112_unary c si it e0 e1 : let '(c', si', it') := unary (c, si, it) e0 e1 in
  (forall x : bool, c' + (if x then it' else si') = c + (if x then it else si) + (if x then e1 else e0)) /\ si <= si' /\ it <= it' /\ (0 <= e0 -> 0 <= e1 -> c' = c).
Proof. exact (unary_ok c si it e0 e1). Qed.
Print Assumptions C112_unary.
Example C112_ex_unary : unary (10, 1, 2) (-5) (-12) = (-2, 8, 2).
Proof. reflexivity. Qed.
(* IBFSInit: the ASSERT never fails; the same flow is added to both arcs, neither is exceeded, one is full, and the node joins the tree on the side of the other. *)
Theorem C112_saturate a b p q : exists p' q' s, saturate a b p q = Some (p', q', s) /\ p' - p = q' - q /\ p' <= a /\ q' <= b /\ (p' = a \/ q' = b) /\
  (s = Source <-> p' < a) /\ (s = Sink <-> q' < b) /\ (s = Free <-> p' = a /\ q' = b).
Proof. exact (saturate_ok a b p q). Qed.
Print Assumptions C112_saturate.
Example C112_ex_saturate : saturate 5 3 0 (-4) = Some (5, 1, Sink).
Proof. reflexivity. Qed.

(* Graphs made by AddNode and ResetFlow *)
Inductive reached : graph -> Prop :=
| reached_empty : reached empty_graph
| reached_add g n g' : reached g -> add_node g n = Some g' -> reached g'
| reached_reset g : reached g -> reached (fst (reset_flow g)).
Lemma reached_lengths g : reached g -> phi_len g = num_nodes g /\ 0 <= num_nodes g /\ nodes_len g = num_nodes g + if terminals g then 2 else 0.
Proof.
  induction 1 as [|g n g' _ IH E|g _ IH]; [cbn; lia| |].
  - unfold add_node in E. destruct (Z.ltb_spec n 1), (terminals g); try discriminate. cbn in E. injection E as <-. cbn. lia.
  - unfold reset_flow. destruct (terminals g) eqn:E; cbn [fst phi_len num_nodes nodes_len terminals]; [rewrite E|]; lia.
Qed.
Theorem C112_nodes g : reached g -> (forall i, In i (snd (reset_flow g)) -> 0 <= i < nodes_len (fst (reset_flow g))) /\ (forall i, In i (clear_terminals g) -> 0 <= i < phi_len g).
Proof.
  intros R. assert (X := reached_lengths g R). unfold reset_flow, clear_terminals. destruct (terminals g) eqn:E; cbn [fst snd num_nodes nodes_len]; split; intros i H; apply in_zrange in H; lia.
Qed.
Print Assumptions C112_nodes.
(* ResetFlow writes the flows of the two terminals, which do not exist: every call, for every graph. *)
Theorem C112_outside g : reached g -> forall i, In i (snd (reset_flow g)) -> (phi_len (fst (reset_flow g)) <= i <-> i = num_nodes g \/ i = num_nodes g + 1).
Proof.
  intros R i. assert (X := reached_lengths g R). unfold reset_flow. destruct (terminals g) eqn:E; cbn [fst snd num_nodes phi_len]; intros H; apply in_zrange in H; lia.
Qed.
Print Assumptions C112_outside.
Theorem C112_outside_refuted : forall g, reached g -> exists i, In i (snd (reset_flow g)) /\ ~ (0 <= i < phi_len (fst (reset_flow g))).
Proof.
  intros g R. exists (num_nodes g). assert (X := reached_lengths g R). unfold reset_flow. destruct (terminals g) eqn:E; cbn [fst snd num_nodes phi_len]; (split; [apply in_zrange|]; lia).
Qed.
Print Assumptions C112_outside_refuted.
Example C112_ex_outside : exists g, reached g /\ num_nodes g = 3 /\ snd (reset_flow g) = [0; 1; 2; 3; 4] /\ phi_len g = 3.
Proof. eexists. split; [apply (reached_add empty_graph 3); [apply reached_empty|reflexivity]|]. repeat split. Qed.
