(* C85: the duals of SegmMatcher's primal-dual moves stay tight, and the problem handed to the solver measures the energy. *)
From Coq Require Import ZArith List Bool Lia.
From Verif Require Import Lib.Grid Spec.FusionTerms Model.PrimalDual Spec.PrimalDual Proofs.PrimalDual.
Import ListNotations.
Local Open Scope Z_scope.

(* the starting duals exist, add up to the costs of the cliques, and the heights account for them *)
Theorem C85_setup g x : proper g -> labelling g x -> exists st, setup g x = Some st /\ tight g x st /\ heights g st.
Proof. exact (setup_ok g x). Qed.
Print Assumptions C85_setup.

(* then the heights at the current labels add up to the energy *)
Theorem C85_energy g x st : proper g -> labelling g x -> tight g x st -> heights g st ->
  total (map (fun i => height st i (x i)) (gnodes g)) = energy g x.
Proof. exact (heights_energy g x st). Qed.
Print Assumptions C85_energy.

(* the table of a clique holds, for each set of members that change, the cost of the new labels without the duals *)
Theorem C85_table g x alpha st r c old t S : clique_table g x alpha st r c old = Some t ->
  t (mask S c) = ccost c (map (fused x alpha S) (cnodes c)) - total (map (fun d => dual st r (column g d (fused x alpha S (node_at c d)))) (zrange 0 (csize c))).
Proof. exact (clique_table_ok g x alpha st r c old t S). Qed.
Print Assumptions C85_table.

(* with tight duals and a right table of memberships no assertion fails, and the problem tells the change of the energy *)
Theorem C85_pose g x alpha st old : proper g -> labelling g x -> 0 <= alpha < nlab g -> exact_members g -> tight g x st ->
  exists p, pose g x alpha st old = Some p /\ forall S, value g p S - value g p nobody = energy g (fused x alpha S) - energy g x.
Proof. exact (pose_ok g x alpha st old). Qed.
Print Assumptions C85_pose.

(* so a minimizer of the problem gives the best of all sets of changes *)
Theorem C85_minimizer g x alpha st old p S : proper g -> labelling g x -> 0 <= alpha < nlab g -> exact_members g -> tight g x st ->
  pose g x alpha st old = Some p -> (forall S', value g p S <= value g p S') -> forall S', energy g (fused x alpha S) <= energy g (fused x alpha S').
Proof. exact (pose_minimizer g x alpha st old p S). Qed.
Print Assumptions C85_minimizer.

(* whatever the solver answers and however it changed the duals, they are tight for the new labels afterwards *)
Theorem C85_finish g x alpha answer phi st : proper g -> labelling g x -> 0 <= alpha < nlab g -> heights g st ->
  let (x', st') := finish g x alpha answer phi st in
  (forall i, In i (gnodes g) -> x' i = fused x alpha (fun i => answer i =? 1) i) /\ labelling g x' /\ tight g x' st' /\ heights g st'.
Proof. exact (finish_ok g x alpha answer phi st). Qed.
Print Assumptions C85_finish.

(* three nodes in a row with two pairs, and one clique of all of them *)
Definition differ (w : Z) (ls : list Z) : Z := match ls with a :: ls => if forallb (Z.eqb a) ls then 0 else w | [] => 0 end.
Definition line : graph := Graph [0; 1; 2]
  (fun i => if i =? 0 then [Clique [0; 1] (differ 7)] else if i =? 1 then [Clique [1; 2] (differ 5); Clique [2; 0; 1] (differ 11)] else [])
  (fun i l => if i =? 0 then 10 * l else if i =? 1 then 4 - l else 20 - 9 * l)
  (fun i => if i =? 0 then [(0, 0); (2, 1)] else if i =? 1 then [(0, 1); (1, 0); (2, 2)] else [(1, 1); (2, 0)]) 3.
Definition here (i : Z) : Z := if i =? 2 then 1 else 0.
Example C85_ex_proper : proper line /\ labelling line here /\ exact_members line.
Proof.
  assert (B : forall w ls, 0 <= w -> 0 <= differ w ls) by (intros w [|a ls] H; cbn; [ lia |]; destruct (forallb (Z.eqb a) ls); lia).
  split; [| split ].
  - split; [ repeat constructor; cbn; lia |]. split; [ reflexivity |]. intros c H. cbn in H. destruct H as [<-|[<-|[<-|[]]]]; (split; [ discriminate |]; split; [ intros i I; cbn in *; tauto | intros; apply B; lia ]).
  - intros i I. cbn in I. destruct I as [<-|[<-|[<-|[]]]]; cbn; lia.
  - apply exact_by. intros i I. cbn [line gnodes In] in I. decompose [or] I; subst; try tauto; reflexivity.
Qed.
(* the start, the problem for label 2, and the labels and heights after an answer *)
Example C85_ex_moves : match setup line here with
  | Some st => map (fun i => height st i (here i)) [0; 1; 2] = [4; 10; 17] /\ energy line here = 31 /\
      match pose line here 2 st (fun _ _ => 99) with
      | Some p => map (terms p) [0; 1; 2] = [(0, 16); (8, 0); (15, 0)] /\ map (fun t => map (snd t) [0; 1; 2; 3]) (tables p) = [[0; 7; 7; 0]; [0; 3; 2; 0]; [0; 4; 4; 8]] /\
          value line p (fun i => i =? 2) - value line p nobody = -9
      | None => False end /\
      let (x, s) := finish line here 2 (fun i => if i =? 2 then 1 else 0) (fun r d => r - d) st in
      map x [0; 1; 2] = [0; 0; 2] /\ map (fun i => height s i (x i)) [0; 1; 2] = [5; 11; 6] /\ energy line x = 22
  | None => False end.
Proof. vm_compute. tauto. Qed.
