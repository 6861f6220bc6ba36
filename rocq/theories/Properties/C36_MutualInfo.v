(** C36: mutual information. *)
From Coq Require Import ZArith List Reals.
From Verif Require Import Model.JointHist Model.MutualInfo Spec.JointHist Spec.MutualInfo Proofs.MutualInfo.
Import ListNotations.
Open Scope R_scope.

(** the score is the average over the elements of log2( P(a,b) / (P(a) P(b)) ) for the quantised labels *)
Theorem C36_is_information : forall step s1 s2 img1 img2 n, inputs_ok step [s1; s2] [img1; img2] n ->
  exists mn1 mn2, lower_end s1 img1 mn1 /\ lower_end s2 img2 mn2 /\
    mutual_info false step s1 s2 img1 img2 = Some (information (labels step mn1 mn2 img1 img2)).
Proof. exact score_is_information. Qed.
Print Assumptions C36_is_information.

(** Gibbs: non-negative, at most each entropy, zero exactly for independent labels *)
Theorem C36_bounds : forall step s1 s2 img1 img2 n, inputs_ok step [s1; s2] [img1; img2] n ->
  exists mn1 mn2 s, lower_end s1 img1 mn1 /\ lower_end s2 img2 mn2 /\ mutual_info false step s1 s2 img1 img2 = Some s /\
    0 <= s <= entropy1 (labels step mn1 mn2 img1 img2) /\ s <= entropy2 (labels step mn1 mn2 img1 img2) /\
    (s = 0 <-> independent (labels step mn1 mn2 img1 img2)).
Proof. exact score_bounds. Qed.
Print Assumptions C36_bounds.

Theorem C36_symmetric : forall norm step s1 s2 img1 img2 n, inputs_ok step [s1; s2] [img1; img2] n ->
  mutual_info norm step s2 s1 img2 img1 = mutual_info norm step s1 s2 img1 img2.
Proof. exact score_symmetric. Qed.
Print Assumptions C36_symmetric.

Theorem C36_normalised : forall step s1 s2 img1 img2 n, inputs_ok step [s1; s2] [img1; img2] n ->
  exists s, mutual_info true step s1 s2 img1 img2 = Some s /\ 0 <= s <= 1.
Proof. exact normalised_score. Qed.
Print Assumptions C36_normalised.

(** an image against itself scores its own entropy, 1 after normalisation *)
Theorem C36_self : forall step s img n, inputs_ok step [s; s] [img; img] n -> exists mn, lower_end s img mn /\
  mutual_info false step s s img img = Some (entropy1 (labels step mn mn img img)) /\
  (0 < entropy1 (labels step mn mn img img) -> mutual_info true step s s img img = Some 1).
Proof. exact self_score. Qed.
Print Assumptions C36_self.

Theorem C36_dense_agrees : forall norm step s1 s2 img1 img2 n, inputs_ok step [s1; s2] [img1; img2] n ->
  mutual_info_dense norm step s1 s2 img1 img2 = mutual_info norm step s1 s2 img1 img2.
Proof. exact mutual_info_dense_ok. Qed.
Print Assumptions C36_dense_agrees.

(** with the fast-approximation flag the count matrix stays empty and the score is 0, whatever the histograms *)
Theorem C36_fast_approximation_refuted : exists step img1 img2 n s,
  inputs_ok step [None; None] [img1; img2] n /\ mutual_info false step None None img1 img2 = Some s /\ s <> 0 /\
  forall jointHist m1 m2, mutual_info_fast [] jointHist m1 m2 = 0.
Proof. exact fast_wrong. Qed.
Print Assumptions C36_fast_approximation_refuted.

Example C36_ex : inputs_ok 2 [None; None] [[5; 7]; [30; 20]]%Z 2 /\ mutual_info false 2 None None [5; 7]%Z [30; 20]%Z = Some 1.
Proof. exact (conj ex_inputs ex_copy). Qed.
