(* C82: SegmMatcher's fusion moves never increase the energy it reports, as long as its cost tables are long enough. *)
From Coq Require Import ZArith List Bool Lia.
From Verif Require Import Lib.Grid Model.FusionTerms Spec.FusionTerms Model.StereoMoves Spec.StereoMoves.
From Verif Require Proofs.StereoEnergy Proofs.StereoFrames Properties.C81_StereoAssociations.
Import ListNotations.
Open Scope Z_scope.

(* The value of a state is the energy of its labels: the cost of matching pixels to one column, and the costs of labels and cliques. *)
Theorem C82_value : forall s st, sound s -> nreal s <= 199 -> fair_tables (addt s) (remt s) -> reached s st -> value s st = Some (energy s (lab st)).
Proof. intros s st S0 T F R. apply StereoEnergy.value_is; auto. now apply StereoFrames.reached_good. Qed.
Print Assumptions C82_value.

(* The terms of a move exist, are worth nothing when no label changes, and are worth at least the change of the energy. *)
Theorem C82_bound : forall s st alpha x st', sound s -> nreal s <= 199 -> fair_tables (addt s) (remt s) -> reached s st -> 0 <= alpha < nlabels s -> move s st alpha x = Some st' ->
  exists ts, move_terms s st alpha = Some ts /\ terms_value (fun _ => false) ts = 0 /\ energy s (lab st') - energy s (lab st) <= terms_value (fun n => x n =? 1) ts.
Proof.
  intros s st alpha x st' S0 T F R Ha E. pose proof (StereoFrames.reached_good s st S0 R) as G. eexists. split; [ now apply StereoEnergy.move_terms_is |]. split; [ now apply StereoEnergy.unchanged_terms |].
  destruct (StereoRun.move_ok s S0 st alpha x G Ha) as (st1 & E1 & _ & L). rewrite E in E1. injection E1 as <-. now apply StereoEnergy.energy_change.
Qed.
Print Assumptions C82_bound.

(* So, when each answer of the solver is not worse by the terms than leaving all labels as they are, the assertion that the energy does not increase never fails. *)
Theorem C82_minimizing : forall s st ms, sound s -> nreal s <= 199 -> fair_tables (addt s) (remt s) -> reached s st -> solved s st ms ->
  exists st', infer s ms (energy s (lab st)) st = Ran st' /\ energy s (lab st') <= energy s (lab st).
Proof.
  intros s st ms S0 T F R H. destruct (StereoEnergy.infer_ok s S0 T F ms st (StereoFrames.reached_good s st S0 R) H) as (st' & E & _ & D). now exists st'.
Qed.
Print Assumptions C82_minimizing.

(* The hypothesis on the tables is met by any additions that do not decrease, with the removals that the code derives from them; and by the additions of the code. *)
Theorem C82_tables : (forall add, 0 <= add 0 -> (forall i j, 0 <= i <= j -> j < 200 -> add i <= add j) -> fair_tables add (approx_rem add)) /\ fair_tables real_add (approx_rem real_add).
Proof. split; [ exact StereoFrames.fair_mean | exact StereoFrames.real_add_fair ]. Qed.
Print Assumptions C82_tables.

(* The terms are not always the change of the energy: a move that lowers the energy can be charged as one that raises it. *)
Theorem C82_exact_refuted : exists s st alpha x st' ts, sound s /\ nreal s <= 199 /\ reached s st /\ 0 <= alpha < nlabels s /\ move s st alpha x = Some st' /\ move_terms s st alpha = Some ts /\
  energy s (lab st') < energy s (lab st) /\ 0 < terms_value (fun n => x n =? 1) ts.
Proof.
  exists C81_StereoAssociations.tiny. destruct (reset C81_StereoAssociations.tiny None) as [st|] eqn:E; [| discriminate E ]. injection E as E. exists st, 2, (fun n => if n =? 1 then 1 else 0). rewrite <- E. do 2 eexists.
  split; [ exact C81_StereoAssociations.C81_ex_sound |]. split; [ cbn; lia |]. split; [ eapply (reached_reset _ None); [ exact I | reflexivity ] |]. split; [ cbn; lia |]. split; [ reflexivity |]. split; [ reflexivity |]. split; reflexivity.
Qed.
Print Assumptions C82_exact_refuted.

(* The constructor accepts up to 253 disparities, but the tables have 200 entries: with 253 disparities, as many pixels can be matched to one column, and then both the value and the terms of a move are read outside the tables. *)
Theorem C82_long_ranges_refuted : exists s st alpha, construct 0 252 = Some (mind s, nreal s) /\ sound s /\ fair_tables (addt s) (remt s) /\ reached s st /\ 0 <= alpha < nlabels s /\
  (exists row c, 0 <= row < rows s /\ 0 <= c < cols s /\ matched s (lab st) row c = 253) /\ value s st = None /\ move_terms s st alpha = None.
Proof.
  exists StereoFrames.long_row. destruct (StereoRun.reset_ok _ StereoFrames.long_sound None I) as (st & E & _). exists st, 1. split; [ reflexivity |]. split; [ exact StereoFrames.long_sound |]. split; [ exact StereoFrames.real_add_fair |]. split; [ now apply (reached_reset _ None) |]. split; [ cbn; lia |].
  split; [ exists 0, 0; split; [ cbn; lia | split; [ cbn; lia | now apply StereoFrames.long_matched ] ] |]. now apply StereoFrames.long_stuck.
Qed.
Print Assumptions C82_long_ranges_refuted.

(* In the row of C81: two pixels matched to one column cost 400, and their labels differ by one. *)
Example C82_ex_value : exists st, reset C81_StereoAssociations.tiny None = Some st /\ value C81_StereoAssociations.tiny st = Some 401.
Proof. eexists. split; reflexivity. Qed.
Example C82_ex_terms : exists st, reset C81_StereoAssociations.tiny None = Some st /\ move_terms C81_StereoAssociations.tiny st 2 = Some [(101, [0]); (0, [0]); (1, [1]); (-2, [0; 1]); (101, [1])].
Proof. eexists. split; [ reflexivity |]. vm_compute. reflexivity. Qed.
