(* What SegmMatcher gives out. *)
From Coq Require Import ZArith List Bool Lia.
From Verif Require Import Lib.Grid Model.FusionTerms Spec.FusionTerms Model.StereoMoves Spec.StereoMoves Proofs.StereoMoves Proofs.StereoRun Proofs.StereoFrames.
Import ListNotations.
Local Open Scope Z_scope.

Lemma construct_is mn mx : 0 <= mn -> 0 <= mx ->
  (forall lo n, construct mn mx = Some (lo, n) <-> lo = Z.min mn mx /\ n = Z.max mn mx - lo + 1 /\ 2 <= n <= 253 /\ Z.max mn mx < 2147483647).
Proof.
  intros H1 H2 lo n. unfold construct. cbv zeta. rewrite !step_mod, !step_div. unfold occluded_label.
  assert (A : (if mx <? mn then mx else mn) = Z.min mn mx) by (destruct (mx <? mn) eqn:E; lia). assert (B : (if mx <? mn then mn else mx) = Z.max mn mx) by (destruct (mx <? mn) eqn:E; lia). rewrite A, B. clear A B. set (a := Z.min mn mx). set (b := Z.max mn mx). rewrite Z.sub_0_r. unfold ensure.
  destruct (b <? 2147483647) eqn:E1; [| split; [ discriminate | lia ] ]. destruct (0 <? b - a) eqn:E2; [| split; [ discriminate | lia ] ]. cbn [Z.eqb]. destruct (b - a + 1 <=? 253) eqn:E3; [| split; [ discriminate | lia ] ]. split; [ intros [= <- <-]; lia | intros (-> & -> & _); reflexivity ].
Qed.

Lemma position s st i : sound s -> reached s st -> In i (pixels s) -> output st i < nreal s -> real_label s (output st i) = Some (mind s + output st i) /\ In (mind s + output st i) (zrange (mind s) (nreal s)).
Proof.
  intros S0 R I H. pose proof (proj2 (reached_good s st S0 R) i I) as L. unfold output in *. split; [| apply in_zrange; lia ]. unfold real_label. replace ((0 <=? lab st i) && (lab st i <? nlabels s)) with true by lia. cbn [ensure]. rewrite step_mul. replace (lab st i <? nreal s) with true by lia. reflexivity.
Qed.
Lemma zero_offset s st i : sound s -> reached s st -> In i (pixels s) -> output st i < nreal s -> (real_label s (output st i) = Some (output st i) <-> mind s = 0).
Proof. intros S0 R I H. destruct (position s st i S0 R I H) as [-> _]. split; [ intros [= E]; lia | intros ->; reflexivity ]. Qed.

Definition offset_row : setup := Setup 1 3 10 11 false (fun i => i <? 2) (fun i l => if l =? (if i =? 0 then 0 else 11) then 0 else 1) (fun _ => []) real_add (approx_rem real_add).
Lemma offset_sound : sound offset_row.
Proof. unfold sound. cbn [rows cols mind nreal cliques offset_row]. repeat split; try lia. intros i c []. Qed.
Lemma outputs_wrong : exists s st i j, construct 10 20 = Some (mind s, nreal s) /\ sound s /\ reached s st /\ In i (pixels s) /\ In j (pixels s) /\
  real_label s (lab st i) = Some 10 /\ ~ In (output st i) (zrange (mind s) (nreal s)) /\ output st i <> dont_care_label /\ output st i <> occluded_label /\
  real_label s (lab st j) = Some dont_care_label /\ In (output st j) (zrange (mind s) (nreal s)).
Proof.
  destruct (reset offset_row None) as [st|] eqn:E; [| discriminate E ]. exists offset_row, st, 0, 1. injection E as E. assert (L0 : lab st 0 = 0) by (rewrite <- E; reflexivity). assert (L1 : lab st 1 = 11) by (rewrite <- E; reflexivity). unfold output. rewrite L0, L1.
  split; [ reflexivity |]. split; [ exact offset_sound |]. split; [ apply (reached_reset _ None); [ exact I | rewrite <- E; reflexivity ] |]. split; [ apply (in_pixels _ offset_sound); cbn; lia |]. split; [ apply (in_pixels _ offset_sound); cbn; lia |]. split; [ reflexivity |]. split; [ intro X; apply in_zrange in X; cbn in X; lia |]. split; [ discriminate |]. split; [ discriminate |]. split; [ reflexivity |]. apply in_zrange. cbn. lia.
Qed.

Lemma no_internal_label s r : 0 <= mind s -> maxd s < occluded_label -> internal_label s r = None.
Proof.
  intros H1 H2. unfold internal_label. destruct ((r =? occluded_label) || (r =? dont_care_label)) eqn:E; [| reflexivity ]. cbn [ensure]. replace ((mind s <=? r) && (r <=? maxd s)) with false; [ reflexivity |]. unfold occluded_label, dont_care_label in *. lia.
Qed.
