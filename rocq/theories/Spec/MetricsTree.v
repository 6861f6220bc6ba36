(** What the averaged metrics of a tree of batches are; uses the type of trees and counters of the model only. *)
From Coq Require Import ZArith QArith List Bool.
From Verif Require Import Lib.Grid Model.Metrics.
Import ListNotations.
Open Scope Z_scope.

(** 64-bit counters *)
Definition u64 (v : Z) : Prop := 0 <= v < 18446744073709551616.
Definition good (c : counters) : Prop := u64 (nTP c) /\ u64 (nTN c) /\ u64 (nFP c) /\ u64 (nFN c) /\ u64 (nSE c) /\ u64 (nDC c).
(** matrices of the same size without gaps between rows *)
Definition mat_ok (m cl : mat) : Prop := mrows m = mrows cl /\ mcols m = mcols cl /\ continuous m = true.
Definition frame_ok (cl : mat) (gt roi : option mat) : Prop :=
  0 < mrows cl /\ 0 < mcols cl /\ continuous cl = true /\ (forall g, gt = Some g -> mat_ok g cl) /\ (forall r, roi = Some r -> mat_ok r cl).
(** counters whose sums fit 64 bits *)
Definition small (m : counters) : Prop := 0 <= nTP m /\ 0 <= nTN m /\ 0 <= nFP m /\ 0 <= nFN m /\ nTP m + nTN m + nFP m + nFN m < 18446744073709551616.

(** a sequence of frames counted one after the other *)
Definition frame := (mat * option mat * option mat)%type.
Definition accumulate_frames (c : counters) (l : list frame) : option counters :=
  fold_left (fun o f => let '(cl, gt, roi) := f in match o with Some c => accumulate_mats c cl gt roi | None => None end) l (Some c).

(** the work batches under a batch, with their number of outputs and their counters *)
Fixpoint leaves (b : batch) : list (Z * counters) := match b with Work n c => [(n, c)] | Group _ l => flat_map leaves l end.
Definition zsum_list (l : list Z) : Z := fold_right Z.add 0 l.
Definition produced (b : batch) : Z := zsum_list (map fst (leaves b)).
(** counters summed modulo 2^64 *)
Definition summed (l : list counters) : counters :=
  let s f := (zsum_list (map f l)) mod 18446744073709551616 in Cnt (s nTP) (s nTN) (s nFP) (s nFN) (s nSE) (s nDC).
(** the things averaged over: a work batch, the totals of a bare group; other groups are opened, children without output are left out *)
Fixpoint units (b : batch) : list counters :=
  match b with
  | Work _ c => [c]
  | Group true l => [summed (map snd (flat_map leaves l))]
  | Group false l => flat_map (fun x => if produced x =? 0 then [] else units x) l
  end.
Definition fields : list (metrics -> Q) := [dRecall; dSpecificity; dFPR; dFNR; dPBC; dPrecision; dFMeasure; dMCC].
(** a tree whose numbers of outputs and of units fit 64 bits *)
Definition wf (b : batch) : Prop := (forall n c, In (n, c) (leaves b) -> 0 <= n /\ good c) /\ produced b < 18446744073709551616 /\ Z.of_nat (length (units b)) < 18446744073709551616.
