(** What the calls of the asynchronous consumer should do. *)
From Coq Require Import List Bool Arith.
From Verif Require Import Model.GlPipe.
Import ListNotations.

(** the call handles packet [i], all of it: the images it reads, those it shows, and the index it counts and saves are those of that packet *)
Definition of_packet {X} (s : source X) (roi i : nat) (e : event X) : Prop :=
  e_idx e = i /\ e_in e = inputs s i /\ (evaluating s = true -> e_gt e = gts s i) /\ (showing s = true -> e_shown_in e = inputs s i) /\
  (showing s = true -> evaluating s = true -> e_shown_gt e = gts s i) /\ e_roi e = roi.
(** at least two packets, none of them empty *)
Definition complete {X} (s : source X) : Prop :=
  2 <= n_inputs s /\ 2 <= n_gts s /\ forall i, i < n_inputs s -> inputs s i <> None /\ (evaluating s = true -> gts s i <> None).
