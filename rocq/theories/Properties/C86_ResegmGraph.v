(* C86: the resegmentation of SegmMatcher reads the right duals only as long as its graph has no temporal cliques. *)
From Coq Require Import ZArith List Bool Lia Permutation.
From Verif Require Import Lib.Grid Spec.FusionTerms Model.PrimalDual Spec.PrimalDual Proofs.PrimalDual Model.ResegmGraph Spec.ResegmGraph Proofs.ResegmGraph.
Import ListNotations.
Local Open Scope Z_scope.

(* the table of memberships is right exactly if no pixel is linked to the other layer, in whatever order the links are made *)
Theorem C86_members s order : sound_scene s -> Permutation order (nodes s) -> exact_members (resegm_graph s order) <-> ~ has_link s.
Proof. exact (exact_iff s order). Qed.
Print Assumptions C86_members.

(* the energy of labels is what they cost and what different labels of neighbours and of linked pixels cost, each pair once *)
Theorem C86_energy s order x : sound_scene s -> labelling (resegm_graph s order) x -> energy (resegm_graph s order) x = total (map (costs_at s x) (nodes s)).
Proof. exact (energy_sum s order x). Qed.
Print Assumptions C86_energy.

(* in the first frame, the best answer to the problem gives the best labels that the move can reach *)
Theorem C86_first_frame s order x alpha old : sound_scene s -> Permutation order (nodes s) -> frames s = 0 -> labelling (resegm_graph s order) x -> 0 <= alpha < 2 ->
  exists st p, setup (resegm_graph s order) x = Some st /\ pose (resegm_graph s order) x alpha st old = Some p /\
    forall S, (forall S', value (resegm_graph s order) p S <= value (resegm_graph s order) p S') ->
      forall S', energy (resegm_graph s order) (fused x alpha S) <= energy (resegm_graph s order) (fused x alpha S').
Proof.
  intros G P F L A. pose proof (scene_proper s order G) as W. assert (M : exact_members (resegm_graph s order)) by (apply exact_iff; [ exact G | exact P | intros [Q _]; lia ]).
  destruct (setup_ok _ x W L) as (st & E & T & _). destruct (pose_ok _ x alpha st old W L A M T) as (p & Ep & _). exists st, p. split; [ exact E |]. split; [ exact Ep |]. intros S Mn. exact (pose_minimizer _ x alpha st old p S W L A M T Ep Mn).
Qed.
Print Assumptions C86_first_frame.

(* two pixels in each image, of which the first is linked to the other layer *)
Definition pair_scene (f : Z) : scene := Scene 1 3 (fun _ _ c => c <? 2) (fun _ r c => (r, c)) (fun i l => if l =? 1 then (if i =? 6 then 300 else 1) else 0)
  (fun _ => 0) (fun i => if i =? 6 then 200 else 1) (fun _ => 1) f.
Definition one_set (i : Z) : Z := if i =? 7 then 1 else 0.
Definition mine (i : Z) : bool := i =? 9.

(* from the second frame on, the best answer to the problem may raise the energy *)
Theorem C86_raised_refuted : exists s x alpha st p S, sound_scene s /\ frames s = 1 /\ labelling (resegm_graph s (nodes s)) x /\ 0 <= alpha < 2 /\
  setup (resegm_graph s (nodes s)) x = Some st /\ pose (resegm_graph s (nodes s)) x alpha st (fun _ _ => 0) = Some p /\
  (forall S', value (resegm_graph s (nodes s)) p S <= value (resegm_graph s (nodes s)) p S') /\
  energy (resegm_graph s (nodes s)) x < energy (resegm_graph s (nodes s)) (fused x alpha S).
Proof.
  assert (G : sound_scene (pair_scene 1)) by (split; [ reflexivity |]; split; [ reflexivity |]; intro i; cbn; destruct (i =? 6); lia).
  assert (L : labelling (resegm_graph (pair_scene 1) (nodes (pair_scene 1))) one_set) by (intros i _; unfold one_set; cbn [nlab resegm_graph]; destruct (i =? 7); lia).
  destruct (setup_ok _ one_set (scene_proper _ (nodes (pair_scene 1)) G) L) as (st & E & T & _). set (g := resegm_graph (pair_scene 1) (nodes (pair_scene 1))) in *.
  pose proof (pose_some g one_set 1 st (fun _ _ => 0) T) as Ep. eexists (pair_scene 1), one_set, 1, st, _, mine. fold g.
  split; [ exact G |]. split; [ reflexivity |]. split; [ exact L |]. split; [ lia |]. split; [ exact E |]. split; [ exact Ep |]. split; [| reflexivity ].
  apply least.
  - cbn [tables]. intros ct i H1 H2. apply in_map_iff in H1. destruct H1 as ([r c] & <- & H1). cbn [fst snd] in H2. apply in_rows_clique in H1. apply (graph_nodes_ok (pair_scene 1)) with (order := nodes (pair_scene 1)) (c := c); [ reflexivity | reflexivity | exact H1 | exact H2 ].
  - assert (Es : st = match setup g one_set with Some s => s | None => Duals (fun _ _ => 0) (fun _ _ => 0) 0 end) by now rewrite E. rewrite Es. vm_compute. reflexivity.
Qed.
Print Assumptions C86_raised_refuted.

Example C86_ex_scene : sound_scene (pair_scene 0) /\ nodes (pair_scene 0) = [0; 1; 3; 4; 6; 7; 9; 10] /\ ~ has_link (pair_scene 0) /\ has_link (pair_scene 1).
Proof.
  split; [ split; [ reflexivity |]; split; [ reflexivity |]; intro i; cbn; destruct (i =? 6); lia |]. split; [ reflexivity |]. split; [ intros [H _]; cbn in H; lia |]. split; [ cbn; lia |]. exists 1, 0, 0. cbn. repeat split; lia.
Qed.
(* what the table says about the nodes of the second camera, and where they really are *)
Example C86_ex_members : map (member_table (pair_scene 1) (nodes (pair_scene 1))) [6; 9] = [[(2, 0); (5, 1)]; [(3, 0); (5, 0)]] /\
  map (inc (numbered 0 (all_cliques (resegm_graph (pair_scene 1) [])))) [6; 9] = [[(3, 0); (5, 0)]; [(4, 0); (5, 1)]].
Proof. vm_compute. tauto. Qed.
