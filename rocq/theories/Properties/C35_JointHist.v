(** C35: joint histograms have consistent marginals. *)
From Coq Require Import ZArith List.
From Verif Require Import Model.JointHist Spec.JointHist Proofs.JointHist.
Import ListNotations.
Open Scope Z_scope.

(** every entry counts the elements falling in its bin, marginals are sums of joint entries, totals are the number of elements *)
Theorem C35_counts : forall step skips imgs n, inputs_ok step skips imgs n -> exists mns margs joint,
  length mns = length imgs /\
  (forall i s img, nth_error skips i = Some s -> nth_error imgs i = Some img -> exists mn, nth_error mns i = Some mn /\ lower_end s img mn) /\
  hist_sparse step skips imgs = Some (margs, joint) /\ length margs = length imgs /\
  (forall k, look joint k = occurrences (fun e => key_eqb k (bins step mns imgs e)) (seq 0 n)) /\
  (forall i k, (i < length imgs)%nat -> look (nth i margs []) [k] = occurrences (fun e => k =? nth i (bins step mns imgs e) 0) (seq 0 n)) /\
  (forall i k, (i < length imgs)%nat -> look (nth i margs []) [k] = zsum (map snd (filter (fun kc => nth i (fst kc) 0 =? k) joint))) /\
  zsum (map snd joint) = Z.of_nat n /\ (forall i, (i < length imgs)%nat -> zsum (map snd (nth i margs [])) = Z.of_nat n) /\
  NoDup (map fst joint) /\ Forall (fun kc => 0 < snd kc) joint.
Proof. exact sparse_result. Qed.
Print Assumptions C35_counts.

(** the dense matrices hold the same counts and no index leaves them *)
Theorem C35_dense : forall step skips imgs n, inputs_ok step skips imgs n -> exists mns dims margs joint,
  length mns = length imgs /\
  (forall i s img, nth_error skips i = Some s -> nth_error imgs i = Some img -> exists mn, nth_error mns i = Some mn /\ lower_end s img mn) /\
  hist_dense step skips imgs = Some (dims, margs, joint) /\
  length dims = length imgs /\ length margs = length imgs /\
  (forall k, Forall2 (fun i d => 0 <= i < d) k dims ->
     look_dense dims joint k = Some (occurrences (fun e => key_eqb k (bins step mns imgs e)) (seq 0 n))) /\
  (forall i k, (i < length imgs)%nat -> 0 <= k < nth i dims 0 ->
     look_dense [nth i dims 0] (nth i margs []) [k] = Some (occurrences (fun e => k =? nth i (bins step mns imgs e) 0) (seq 0 n))) /\
  (forall e, (e < n)%nat -> Forall2 (fun i d => 0 <= i < d) (bins step mns imgs e) dims).
Proof. exact dense_result. Qed.
Print Assumptions C35_dense.

Theorem C35_representations_agree : forall step skips imgs n, inputs_ok step skips imgs n -> exists margs joint dims dmargs djoint,
  hist_sparse step skips imgs = Some (margs, joint) /\ hist_dense step skips imgs = Some (dims, dmargs, djoint) /\
  (forall k, Forall2 (fun i d => 0 <= i < d) k dims -> look_dense dims djoint k = Some (look joint k)) /\
  (forall i k, (i < length imgs)%nat -> 0 <= k < nth i dims 0 -> look_dense [nth i dims 0] (nth i dmargs []) [k] = Some (look (nth i margs []) [k])) /\
  (forall k, In k (map fst joint) -> Forall2 (fun i d => 0 <= i < d) k dims).
Proof. exact agree. Qed.
Print Assumptions C35_representations_agree.

(** bins are the consecutive intervals of width [step] starting at the lower end *)
Theorem C35_bins : forall step mn v k, 1 <= step -> quantised step mn v = k <-> in_bin step mn k v.
Proof. exact quantised_bin. Qed.
Print Assumptions C35_bins.

Example C35_ex : inputs_ok 10 [None; Some (0, 255)] [[7; 30; 8; 31]; [5; 250; 9; 100]] 4 /\
  hist_sparse 10 [None; Some (0, 255)] [[7; 30; 8; 31]; [5; 250; 9; 100]] =
    Some ([[([0], 2); ([2], 2)]; [([0], 2); ([25], 1); ([10], 1)]], [([0; 0], 2); ([2; 25], 1); ([2; 10], 1)]).
Proof. exact joint_example. Qed.
