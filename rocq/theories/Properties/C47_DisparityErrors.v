(** C47: stereo disparity errors. *)
From Coq Require Import ZArith QArith Qabs List Bool Permutation.
From Verif Require Import Lib.Grid Model.Metrics Spec.Metrics Spec.MetricsTree Proofs.Metrics Proofs.MetricsDisp.
Import ListNotations.
Open Scope Z_scope.

(** a pixel is known unless its ground truth is not a number, the largest of its type, or negative *)
Theorem C47_known : forall t v, valid_gt t v = true <-> exists q, v = Some q /\
  ~ (q == match t with U8 => inject_Z 255 | S8 => inject_Z 127 | U16 => inject_Z 65535 | S16 => inject_Z 32767 | S32 => inject_Z 2147483647 | F32 => inject_Z (2 ^ 128 - 2 ^ 104) end)%Q /\
  match t with U8 | U16 => True | _ => (0 <= q)%Q end.
Proof. exact valid_iff. Qed.
Print Assumptions C47_known.
(** the errors added are those of the pixels in scope, in order, and the others are counted *)
Theorem C47_errors : forall t px e, u64 (nDCs e) ->
  let scope p := valid_gt t (snd (fst p)) && (match snd p with None => true | Some r => negb (r =? 0) end) in
  vErrors (add_map t e px) = vErrors e ++ map (fun p => match fst (fst p), snd (fst p) with Some x, Some y => Some (Qabs (x - y)) | _, _ => None end) (filter scope px) /\
  nDCs (add_map t e px) = wrap (nDCs e + count (fun p => negb (scope p)) px) /\
  Z.of_nat (length (filter scope px)) + count (fun p => negb (scope p)) px = Z.of_nat (length px).
Proof.
  intros t px e U scope. rewrite add_map_ok by exact U. cbn [vErrors nDCs].
  assert (E : forall p, in_scope t p = scope p) by (intros [[i g] r]; reflexivity). rewrite (filter_ext _ _ E). split; [| split ].
  - f_equal. apply map_ext. intros [[i g] r]. reflexivity.
  - f_equal. f_equal. apply count_ext_in. intros p _. now rewrite E.
  - pose proof (scope_partition t px) as S. rewrite map_length, (filter_ext _ _ E) in S. rewrite <- S. f_equal. apply count_ext_in. intros p _. now rewrite E.
Qed.
Print Assumptions C47_errors.

(** errors over two images are those of each, merged *)
Theorem C47_merge : forall t e p q, u64 (nDCs e) -> add_map t e (p ++ q) = merge_errors (add_map t e p) (add_map t (DE [] 0) q).
Proof. exact add_map_merge. Qed.
Print Assumptions C47_merge.
Theorem C47_percent_range : forall l m, (0 <= CalcPercentBad l m <= 100)%Q.
Proof. exact percent_range. Qed.
Print Assumptions C47_percent_range.
Theorem C47_percent_antitone : forall l m m', (m <= m')%Q -> (CalcPercentBad l m' <= CalcPercentBad l m)%Q.
Proof. exact percent_antitone. Qed.
Print Assumptions C47_percent_antitone.
(** merged batches: mean weighted by the number of errors, in any order *)
Theorem C47_percent_merge : forall l l' m, (CalcPercentBad (l ++ l') m * inject_Z (Z.of_nat (length (l ++ l'))) ==
  CalcPercentBad l m * inject_Z (Z.of_nat (length l)) + CalcPercentBad l' m * inject_Z (Z.of_nat (length l')))%Q.
Proof. exact percent_merge. Qed.
Print Assumptions C47_percent_merge.
Theorem C47_percent_order : forall l l' m, Permutation l l' -> (CalcPercentBad l m == CalcPercentBad l' m)%Q.
Proof. exact percent_order. Qed.
Print Assumptions C47_percent_order.

(** without NaN: the average is the mean, the square of the RMS is the mean of the squares, and the average is at most the RMS *)
Theorem C47_average : forall l : list Q, l <> [] -> exists a r, CalcAverage (map Some l) = Some a /\ is_mean a l /\
  CalcRMS2 (map Some l) = Some r /\ is_mean r (map (fun q => q * q)%Q l) /\ (a * a <= r)%Q.
Proof.
  intros l N. destruct (average_value l N) as (a & Ea & Ma). destruct (rms_value l N) as (r & Er & Mr). exists a, r. repeat (split; [ assumption |]). now apply (average_le_rms l).
Qed.
Print Assumptions C47_average.
(** one NaN makes both NaN *)
Theorem C47_nan_spreads : forall l, In None l -> CalcAverage l = None /\ CalcRMS2 l = None.
Proof. exact average_nan. Qed.
Print Assumptions C47_nan_spreads.
(** but a map of NaN has no bad pixel *)
Theorem C47_nan_is_bad_refuted : exists e, e = add_map F32 (DE [] 0) [(None, Some (5 # 1), None); (None, Some (7 # 1), None)] /\
  vErrors e = [None; None] /\ (CalcPercentBad (vErrors e) 1 == 0)%Q.
Proof. eexists. split; [ reflexivity |]. split; vm_compute; reflexivity. Qed.
Print Assumptions C47_nan_is_bad_refuted.

(** unsigned maps: the largest value marks missing ground truth; a zero ROI excludes *)
Example C47_ex : exists e, e = add_map U8 (DE [] 0) [(Some (3 # 1), Some (5 # 1), None); (Some (3 # 1), Some (255 # 1), None); (Some (9 # 1), Some (5 # 1), Some 0); (Some (9 # 1), Some (5 # 1), Some 255)] /\
  length (vErrors e) = 2%nat /\ nDCs e = 2 /\ (CalcPercentBad (vErrors e) 3 == 50)%Q /\ CalcAverage (vErrors e) = Some ((0 + Qabs (3 - 5) + Qabs (9 - 5)) / 2)%Q.
Proof. eexists. split; [ reflexivity |]. repeat split; vm_compute; reflexivity. Qed.
