(* C102: the masks and the confidence maps of EdgeDetectorCanny. *)
From Coq Require Import ZArith QArith List Lia Lqa.
From Verif Require Import Lib.Grid Model.KeyPoints Spec.KeyPoints Model.Canny Spec.Canny Proofs.Canny.
Import ListNotations.
Open Scope Z_scope.

(* A pixel is in the mask exactly when a chain of pixels above the lower threshold links it to one above the threshold. *)
Theorem C102_hysteresis f i t p : (0 < f)%Q -> (f < 1)%Q -> (0 <= t)%Q -> (t <= 32767)%Q -> (In p (apply_threshold f i t) <-> edge i (t * f) t p).
Proof. exact (threshold_edge f i t p). Qed.
Print Assumptions C102_hysteresis.

(* Higher thresholds only remove edges. *)
Theorem C102_monotone f i t u p : (0 < f)%Q -> (f < 1)%Q -> (0 <= t)%Q -> (t <= u)%Q -> (u <= 32767)%Q -> In p (apply_threshold f i u) -> In p (apply_threshold f i t).
Proof. exact (threshold_less f i t u p). Qed.
Print Assumptions C102_monotone.

(* Negative thresholds stand for 100. *)
Theorem C102_default f i t p : (t < 0)%Q -> (In p (apply_threshold f i t) <-> In p (apply_threshold f i 100)).
Proof. exact (threshold_default f i t p). Qed.
Print Assumptions C102_default.

(* The documentation asks for thresholds between 0 and 1 and promises the default otherwise: those below 1 are all the same, and those above 1 are used. *)
Theorem C102_unit_refuted f i t u : (0 < f)%Q -> (f < 1)%Q -> (0 <= t)%Q -> (t < 1)%Q -> (0 <= u)%Q -> (u < 1)%Q -> apply_threshold f i t = apply_threshold f i u.
Proof. exact (fun F G T T' U U' => eq_trans (threshold_unit f i t F G T T') (eq_sym (threshold_unit f i u F G U U'))). Qed.
Print Assumptions C102_unit_refuted.
Theorem C102_documented_refuted : exists f i t p, (0 < f)%Q /\ (f < 1)%Q /\ (1 < t)%Q /\ In p (apply_threshold f i t) /\ ~ In p (apply_threshold f i 100).
Proof. exact default_unused. Qed.
Print Assumptions C102_documented_refuted.

(* The sums behind a confidence map never saturate early: a pixel has more than k votes exactly when it is an edge at threshold k. *)
Theorem C102_votes f i p k : (0 < f)%Q -> (f < 1)%Q -> 0 <= k < 255 -> (k < votes f i p <-> In p (apply_threshold f i (inject_Z k))).
Proof. exact (votes_spec f i p k). Qed.
Print Assumptions C102_votes.

(* The final normalisation keeps the order of any two pixels. *)
Theorem C102_order f i p q : In p (pixels i) -> In q (pixels i) -> (votes f i p < votes f i q <-> confidence f i p < confidence f i q).
Proof. exact (fun P Q => normal_order (votes f i) (pixels i) p q (fun x _ => votes_range f i x) P Q). Qed.
Print Assumptions C102_order.

(* Unless all pixels have the same votes, the least have confidence 0 and the greatest 255. *)
Theorem C102_ends f i : (exists p q, In p (pixels i) /\ In q (pixels i) /\ votes f i p <> votes f i q) ->
  forall p, In p (pixels i) -> 0 <= confidence f i p <= 255 /\ (confidence f i p = 0 <-> forall q, In q (pixels i) -> votes f i p <= votes f i q) /\
    (confidence f i p = 255 <-> forall q, In q (pixels i) -> votes f i q <= votes f i p).
Proof. exact (normal_ends (votes f i) (pixels i) (fun x _ => votes_range f i x)). Qed.
Print Assumptions C102_ends.
Theorem C102_flat f i p : (forall x y, In x (pixels i) -> In y (pixels i) -> votes f i x = votes f i y) -> In p (pixels i) -> confidence f i p = 0.
Proof. exact (normal_flat (votes f i) (pixels i) p). Qed.
Print Assumptions C102_flat.

(* So a confidence says nothing about thresholds: the faintest edge has confidence 255 if there is no stronger one, and is no edge at threshold 4. *)
Theorem C102_relative_refuted : exists f i p, (0 < f)%Q /\ (f < 1)%Q /\ In p (pixels i) /\ confidence f i p = 255 /\ ~ In p (apply_threshold f i 100) /\ ~ In p (apply_threshold f i 4).
Proof. exists (2 # 5), faint, (0, 1). split; [ lra |]. split; [ lra |]. split; [ apply pixels_in; cbn; lia | exact faint_confidence ]. Qed.
Print Assumptions C102_relative_refuted.

(* The kernel of the blur has an odd size, 4k-1 for the deviation rounded up to k. *)
Theorem C102_kernel sigma : (0 < sigma)%Q -> exists k, kernel_size sigma = Some (4 * k - 1) /\ (inject_Z k - 1 < sigma /\ sigma <= inject_Z k)%Q /\ 1 <= k.
Proof. exact (kernel_value sigma). Qed.
Print Assumptions C102_kernel.
(* The half size of the intended kernel is used as its size: the kernel reaches less far on each side, for every deviation. *)
Theorem C102_kernel_refuted sigma n : kernel_size sigma = Some n -> n mod 2 = 1 /\ 3 <= n /\ n / 2 < half_size sigma.
Proof. exact (kernel_odd sigma n). Qed.
Print Assumptions C102_kernel_refuted.

(* the default parameters: deviations between 1 and 2 give a kernel of 7 pixels *)
Example C102_ex_kernel : kernel_size (707 # 500) = Some 7.
Proof. reflexivity. Qed.
Example C102_ex_edge : In (0, 1) (apply_threshold (2 # 5) faint 3) /\ votes (2 # 5) faint (0, 1) = 4 /\ votes (2 # 5) faint (0, 2) = 0.
Proof. split; [ apply faint_edge; [ lra | lra | split; [ reflexivity | lra ] ] |]. split; [ apply faint_votes | apply faint_votes; discriminate ]. Qed.
(* weak pixels next to a strong one are edges, alone they are not *)
Example C102_ex_chain : apply_threshold (1 # 2) (Image 1 3 (fun p => if snd p =? 0 then 121 else 36) (fun _ => true)) 10 = [(0, 0); (0, 1); (0, 2)] /\
  apply_threshold (1 # 2) (Image 1 3 (fun p => 36) (fun _ => true)) 10 = [].
Proof. split; vm_compute; reflexivity. Qed.
