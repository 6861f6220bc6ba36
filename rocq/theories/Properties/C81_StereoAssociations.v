(* C81: SegmMatcher's buffers of associations agree with its disparity labels, after any fusion moves. *)
From Coq Require Import ZArith List Bool Lia.
From Verif Require Import Lib.Grid Model.FusionTerms Spec.FusionTerms Model.StereoMoves Spec.StereoMoves.
From Verif Require Proofs.StereoRun Proofs.StereoFrames.
Import ListNotations.
Open Scope Z_scope.

(* A frame starts from the warped labels of the frame before, or from the first label of least cost. *)
Theorem C81_start : forall s warped, sound s -> warped_in_range s warped ->
  exists st, reset s warped = Some st /\ started s warped (lab st) /\ labelled s (lab st) /\ counted s st /\ listed s st.
Proof.
  intros s warped S0 W. destruct (StereoRun.reset_ok s S0 warped W) as (st & E & G & _). exists st. split; [ exact E |]. split; [ now apply StereoFrames.reset_started |]. split; [ apply G |]. split; [ now apply StereoRun.good_counted | now apply StereoRun.good_listed ].
Qed.
Print Assumptions C81_start.

(* Then any answer of the solver, for any label, is carried out without a failed assertion or an access outside the buffers: the chosen pixels take the label, and the buffers follow. *)
Theorem C81_moves : forall s st alpha x, sound s -> reached s st -> 0 <= alpha < nlabels s ->
  exists st', move s st alpha x = Some st' /\ moved s alpha x (lab st) (lab st') /\ labelled s (lab st') /\ counted s st' /\ listed s st'.
Proof.
  intros s st alpha x S0 R Ha. pose proof (StereoFrames.reached_good s st S0 R) as G. destruct (StereoRun.move_ok s S0 st alpha x G Ha) as (st' & E & G' & _). exists st'. split; [ exact E |]. split; [ now apply (StereoRun.move_moved s S0 st st' alpha x G Ha) |]. split; [ apply G' |]. split; [ now apply StereoRun.good_counted | now apply StereoRun.good_listed ].
Qed.
Print Assumptions C81_moves.

(* Two pixels of a row of three, disparities 0 and 1: both are matched to column 0; then the second one becomes don't care. *)
Definition tiny : setup := Setup 1 3 0 2 false (fun i => i <? 2) (fun i l => if l =? i then 0 else 300) (fun i => if i =? 0 then [Clique [0; 1] [0; 1] (fun ls => match ls with [a; b] => Z.abs (a - b) | _ => 0 end)] else [])
  real_add (approx_rem real_add).
Example C81_ex_sound : sound tiny.
Proof.
  unfold sound. cbn [rows cols mind nreal cliques tiny]. repeat split; try lia. intros i c I. destruct (i =? 0); [| destruct I ]. destruct I as [<-|[]]. repeat constructor; cbn; auto; lia.
Qed.
Example C81_ex_start : exists st, reset tiny None = Some st /\ map (lab st) [0; 1] = [0; 1] /\ get_count tiny (asc st) 0 0 = Some 2.
Proof. eexists. split; [ reflexivity | split; reflexivity ]. Qed.
Example C81_ex_move : exists st st', reset tiny None = Some st /\ move tiny st 2 (fun n => if n =? 1 then 1 else 0) = Some st' /\ map (lab st') [0; 1] = [0; 2] /\ get_count tiny (asc st') 0 0 = Some 1.
Proof. do 2 eexists. split; [ reflexivity | split; [ reflexivity | split; reflexivity ] ]. Qed.
