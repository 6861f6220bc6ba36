From Coq Require Import ZArith QArith List.
From Verif Require Import Lib.QSum Model.Emd Spec.Emd Proofs.EmdList.
Import ListNotations.
Open Scope Q_scope.

(* EMDL1dist is the least work that turns one histogram into the other on a line *)
Theorem C64_line : forall a b, histogram a -> histogram b -> length a = length b -> lsum a == lsum b ->
  exists d, EMDL1dist a b = Some d /\ least_work (length a) line (at_ a) (at_ b) d.
Proof. exact line_claim. Qed.
Print Assumptions C64_line.

(* CEMDL1dist is the least work on a circle *)
Theorem C64_circle : forall a b, histogram a -> histogram b -> length a = length b -> lsum a == lsum b -> a <> [] ->
  exists d, CEMDL1dist a b = Some d /\ least_work (length a) (circle (length a)) (at_ a) (at_ b) d.
Proof. exact circle_claim. Qed.
Print Assumptions C64_circle.

(* both are metrics; the first even between vectors of different totals or with negative entries *)
Theorem C64_line_metric : forall n, metric_on (fun l => length l = n) EMDL1dist.
Proof. exact line_metric. Qed.
Print Assumptions C64_line_metric.
Theorem C64_circle_metric : forall n t, (0 < n)%nat -> metric_on (fun l => length l = n /\ lsum l == t) CEMDL1dist.
Proof. exact circle_metric. Qed.
Print Assumptions C64_circle_metric.

(* going round is never longer *)
Theorem C64_shorter : forall a b, length a = length b -> a <> [] ->
  exists d e, CEMDL1dist a b = Some d /\ EMDL1dist a b = Some e /\ d <= e.
Proof. exact circle_shorter. Qed.
Print Assumptions C64_shorter.

(* the circular distance does not depend on the bin the numbering starts at *)
Theorem C64_renumber : forall r a b, length a = length b -> lsum a == lsum b -> a <> [] -> (r <= length a)%nat ->
  exists d e, CEMDL1dist a b = Some d /\ CEMDL1dist (renumber r a) (renumber r b) = Some e /\ d == e.
Proof. exact circle_renumber. Qed.
Print Assumptions C64_renumber.

(* how far normalized histograms can be *)
Theorem C64_bounds : forall a b, histogram a -> histogram b -> length a = length b -> lsum a == 1 -> lsum b == 1 ->
  exists d e, EMDL1dist a b = Some d /\ CEMDL1dist a b = Some e /\
    d <= inject_Z (Z.of_nat (length a) - 1) /\ e <= inject_Z (Z.of_nat (length a) / 2).
Proof. exact bounds. Qed.
Print Assumptions C64_bounds.

(* reads outside of the vectors: exactly when the second vector is too short, and for the circular distance of empty vectors *)
Theorem C64_faults : forall a b, (EMDL1dist a b = None <-> (length b < length a)%nat) /\
  (CEMDL1dist a b = None <-> (length b < length a)%nat \/ a = []).
Proof. exact faults. Qed.
Print Assumptions C64_faults.

(* between vectors of different totals, which only debug builds refuse, the circular distance can vanish *)
Theorem C64_totals_refuted : exists a b, histogram a /\ histogram b /\ length a = length b /\ ~ Forall2 Qeq a b /\ CEMDL1dist a b = Some 0.
Proof.
  exists [2; 1; 1], [1; 1; 1]. split; [ repeat constructor; discriminate | ]. split; [ repeat constructor; discriminate | ]. split; [ reflexivity | ].
  split; [ | reflexivity ]. intros H. inversion H as [|x y l l' E]. discriminate E.
Qed.
Print Assumptions C64_totals_refuted.

(* the vectors of the regression tests, modules/utils/test/math.cpp:958-974, and the two ends of a line *)
Example C64_ex :
  let a := [1 # 6; 1 # 6; 2 # 6; 1 # 6; 1 # 6] in let b := [1 # 6; 1 # 6; 1 # 6; 1 # 6; 2 # 6] in let c := [2 # 6; 1 # 6; 1 # 6; 1 # 6; 1 # 6] in
  histogram a /\ histogram b /\ histogram c /\ lsum a == 1 /\ lsum b == 1 /\ lsum c == 1 /\
  (exists d, EMDL1dist a b = Some d /\ d == 2 # 6) /\ (exists d, CEMDL1dist b c = Some d /\ d == 1 # 6) /\ (exists d, EMDL1dist b c = Some d /\ d == 4 # 6) /\
  (exists d, EMDL1dist [1; 0; 0; 0] [0; 0; 0; 1] = Some d /\ d == 3) /\ (exists d, CEMDL1dist [1; 0; 0; 0] [0; 0; 0; 1] = Some d /\ d == 1).
Proof.
  repeat split; try (repeat constructor; discriminate); try reflexivity; eexists; split; vm_compute; reflexivity.
Qed.
