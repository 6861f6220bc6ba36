(** C45: metrics from counters, in exact arithmetic. *)
From Coq Require Import ZArith QArith List Bool.
From Verif Require Import Model.Metrics Spec.Metrics Spec.MetricsTree Proofs.Metrics.
Import ListNotations.
Open Scope Z_scope.

Theorem C45_bounded : forall m, small m ->
  (0 <= CalcRecall m <= 1)%Q /\ (0 <= CalcPrecision m <= 1)%Q /\ (0 <= CalcSpecificity m <= 1)%Q /\ (0 <= CalcFPR m <= 1)%Q /\ (0 <= CalcFNR m <= 1)%Q /\
  (0 <= FMeasure m <= 1)%Q /\ (0 <= CalcPBC m <= 100)%Q.
Proof. exact metrics_unit. Qed.
Print Assumptions C45_bounded.
Theorem C45_complements : forall m, small m ->
  (0 < nTP m + nFN m -> (CalcRecall m + CalcFNR m == 1)%Q) /\ (0 < nTN m + nFP m -> (CalcSpecificity m + CalcFPR m == 1)%Q).
Proof. exact metrics_complements. Qed.
Print Assumptions C45_complements.
(** the F-measure as a function of the counters; it lies between precision and recall *)
Theorem C45_fmeasure : forall m, small m ->
  (0 < nTP m -> (FMeasure m == inject_Z (2 * nTP m) / inject_Z (2 * nTP m + nFP m + nFN m))%Q) /\ (nTP m = 0 -> (FMeasure m == 0)%Q).
Proof. exact fmeasure_value. Qed.
Print Assumptions C45_fmeasure.
Theorem C45_fmeasure_between : forall r p, (0 <= r)%Q -> (0 <= p)%Q -> (r <= p)%Q -> (r <= CalcFMeasure r p <= p)%Q /\ (r <= CalcFMeasure p r <= p)%Q.
Proof.
  intros r p R P L. pose proof (fmeasure_between r p R P L) as F. split; [ exact F |]. now rewrite (fmeasure_comm p r).
Qed.
Print Assumptions C45_fmeasure_between.

(** the Matthews coefficient num/sqrt(den2) lies in [-1,1] even when the product nFP*nFN wraps, and has the textbook numerator when it does not *)
Theorem C45_mcc : forall m num den2, small m -> CalcMCC m = Some (num, den2) ->
  0 < den2 /\ num * num <= den2 /\ den2 = (nTP m + nFP m) * (nTP m + nFN m) * (nTN m + nFP m) * (nTN m + nFN m) /\
  (nFP m * nFN m < 18446744073709551616 -> num = nTP m * nTN m - nFP m * nFN m).
Proof. exact mcc_bounded. Qed.
Print Assumptions C45_mcc.
(** it is 1 exactly for a classification without error *)
Theorem C45_mcc_perfect : forall m num den2, small m -> CalcMCC m = Some (num, den2) -> (0 < num /\ num * num = den2 <-> nFP m = 0 /\ nFN m = 0).
Proof. exact mcc_perfect. Qed.
Print Assumptions C45_mcc_perfect.
(** from 2^32 false positives and negatives the sign can be wrong: one hit against 2^64 errors is reported as positive correlation *)
Theorem C45_mcc_sign_refuted : exists m num den2, small m /\ CalcMCC m = Some (num, den2) /\ 0 < num /\ nTP m * nTN m - nFP m * nFN m < 0.
Proof. exists (Cnt 1 1 4294967296 4294967296 0 0), 1, 340282367237851113631112422265381191681. repeat split; vm_compute; congruence. Qed.
Print Assumptions C45_mcc_sign_refuted.

(** a faultless classification of a frame without positives gets recall, precision, F-measure 0 and no Matthews coefficient *)
Theorem C45_perfect_is_zero_refuted : exists m, small m /\ 0 < nTN m /\ nFP m = 0 /\ nFN m = 0 /\
  (CalcRecall m == 0)%Q /\ (CalcPrecision m == 0)%Q /\ (FMeasure m == 0)%Q /\ CalcMCC m = None /\ (CalcRecall m + CalcFNR m == 0)%Q.
Proof. exists (Cnt 0 100 0 0 0 0). repeat split; vm_compute; congruence. Qed.
Print Assumptions C45_perfect_is_zero_refuted.

Example C45_ex : exists m, small m /\ (CalcRecall m == 3 # 4)%Q /\ (CalcPrecision m == 1 # 2)%Q /\ (FMeasure m == 3 # 5)%Q /\ (CalcPBC m == 40)%Q /\ CalcMCC m = Some (6, 576).
Proof. exists (Cnt 3 3 3 1 0 0). repeat split; vm_compute; congruence. Qed.
