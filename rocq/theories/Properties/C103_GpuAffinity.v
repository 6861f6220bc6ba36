From Coq Require Import ZArith Reals List Bool Lia Lra Arith.
From Verif Require Import Lib.Grid Model.Kernels Model.Affinity Model.GpuAffinity Spec.Affinity Spec.GpuAffinity Proofs.Affinity Proofs.GpuAffinity.
Import ListNotations.
Open Scope nat_scope.

(* for these patch sizes and numbers of offsets, in whatever order the threads of a block run, the graphics card gives the map that the processor gives *)
Theorem C103_same : forall rows cols p offs size roi1 roi2 d1 d2 res r c k, gpu_affinity rows cols offs size roi1 roi2 d1 d2 p res ->
  (length offs <= 128 \/ 192 < length offs) -> In p [1; 3; 5; 7; 11; 15] -> 0 < size -> (forall q, length (d1 q) = size) -> (forall q, length (d2 q) = size) ->
  (0 <= r < rows)%Z -> (0 <= c < cols)%Z -> k < length offs ->
  res (r, c, k) = desc_affinity rows cols (Z.of_nat p) offs roi1 roi2 (fun a b => l2 (d1 a) (d2 b)) (r, c, k).
Proof. exact gpu_same. Qed.
Print Assumptions C103_same.

(* there always is a result: for up to 254 offsets and odd patches up to 31 no thread waits for ever *)
Theorem C103_runs : forall rows cols p offs size roi1 roi2 d1 d2, length offs <= 254 -> Nat.odd p = true -> p <= 31 -> 0 < size -> exists res, gpu_affinity rows cols offs size roi1 roi2 d1 d2 p res.
Proof.
  intros rows cols p offs size roi1 roi2 d1 d2 L O M S0. destruct (Nat.eq_dec p 1) as [->|N]; [ eexists; now apply single_exists |]. eexists. now apply patch_exists.
Qed.
Print Assumptions C103_runs.

(* with 129 to 192 offsets the block has 192 threads, and every third difference of the descriptors is left out of the distance *)
Theorem C103_dropped_bins : forall rows cols offs size roi1 roi2 d1 d2 res r c k, gpu_affinity rows cols offs size roi1 roi2 d1 d2 1 res -> 128 < length offs <= 192 -> 0 < size ->
  (0 <= r < rows)%Z -> (0 <= c < cols)%Z -> k < length offs -> let d := nth k offs 0%Z in
  res (r, c, k) = if matchable cols 0 (wanted roi1) (wanted roi2) d r c
    then sqrt (big size (fun i => if two_thirds i then (nth i (d1 (r, c)) 0 - nth i (d2 (r, (c + d)%Z)) 0) * (nth i (d1 (r, c)) 0 - nth i (d2 (r, (c + d)%Z)) 0) else 0)%R) else (-1)%R.
Proof.
  intros rows cols offs size roi1 roi2 d1 d2 res r c k G M S0 R C K d. rewrite (whole_single _ _ _ _ _ _ _ _ S0 _ G r c k R C K). unfold raw_value. fold d. destruct (matchable _ _ _ _ _ _ _); [| reflexivity ].
  unfold apart, distance. f_equal. apply big_ext. intros i _. rewrite (l2_thirds _ M). reflexivity.
Qed.
Print Assumptions C103_dropped_bins.

(* so that descriptors that differ can be at distance 0 on the graphics card *)
Theorem C103_offsets_refuted : exists rows cols offs size d1 d2 r c k, dispatched rows cols (length offs) size true true = true /\ 0 < size /\ (forall q, length (d1 q) = size) /\ (forall q, length (d2 q) = size) /\
  (0 <= r < rows)%Z /\ (0 <= c < cols)%Z /\ k < length offs /\ (exists res, gpu_affinity rows cols offs size None None d1 d2 1 res) /\
  desc_affinity rows cols 1 offs None None (fun a b => l2 (d1 a) (d2 b)) (r, c, k) = 1%R /\ forall res, gpu_affinity rows cols offs size None None d1 d2 1 res -> res (r, c, k) = 0%R.
Proof.
  exists 9%Z, 9%Z, (repeat 0%Z 129), 3, (fun _ => [0; 0; 1]%R), (fun _ => [0; 0; 0]%R), 4%Z, 4%Z, 0. split; [ reflexivity |]. split; [ lia |]. split; [ reflexivity |]. split; [ reflexivity |]. split; [ lia |]. split; [ lia |]. split; [ rewrite repeat_length; lia |].
  split; [ eexists; apply single_exists; [ lia | rewrite repeat_length; lia ] |]. split.
  - rewrite desc_entry by (lia || (rewrite repeat_length; lia) || (intros; apply l2_pos)). cbv zeta.
    match goal with |- match ?l with _ => _ end = _ => replace l with [(4, 4)%Z] by (vm_compute; reflexivity) end. unfold average. cbn [sum fold_right length INR]. unfold l2. cbn [combine fold_left fst snd].
    replace (0 + (0 - 0) * (0 - 0) + (0 - 0) * (0 - 0) + (1 - 0) * (1 - 0))%R with 1%R by lra. rewrite sqrt_1. lra.
  - intros res G. rewrite (C103_dropped_bins _ _ _ _ _ _ _ _ _ 4%Z 4%Z 0 G) by (rewrite ?repeat_length; lia). cbv zeta.
    match goal with |- (if ?b then _ else _) = _ => replace b with true by reflexivity end. cbn [big]. change (two_thirds 2) with false. change (two_thirds 1) with true. change (two_thirds 0) with true. cbn [nth].
    replace (0 + (0 - 0) * (0 - 0) + (0 - 0) * (0 - 0) + 0)%R with 0%R by lra. apply sqrt_0.
Qed.
Print Assumptions C103_offsets_refuted.

(* for every odd patch size, an entry is the average over those pixels around that the halving of the block gets to *)
Theorem C103_dropped_pixels : forall rows cols p offs size roi1 roi2 d1 d2 res r c k, gpu_affinity rows cols offs size roi1 roi2 d1 d2 p res -> Nat.odd p = true -> p <> 1 ->
  (length offs <= 128 \/ 192 < length offs) -> 0 < size -> (forall q, length (d1 q) = size) -> (forall q, length (d2 q) = size) -> (0 <= r < rows)%Z -> (0 <= c < cols)%Z -> k < length offs ->
  let d := nth k offs 0%Z in
  res (r, c, k) = match filter (fun q => added (patch_threads p) (slot p r c q)) (supporters rows cols (Z.of_nat p / 2) (wanted roi1) (wanted roi2) d r c) with
    | [] => (-1)%R | l => average (fun q => l2 (d1 q) (d2 (fst q, (snd q + d)%Z))) l end.
Proof.
  intros rows cols p offs size roi1 roi2 d1 d2 res r c k G O N M S0 A B R C K d. rewrite (whole_patch _ _ _ _ _ _ _ _ S0 p _ O N G r c k R C K). unfold patch_value. fold d.
  destruct (filter _ _) as [|q l]; [ reflexivity |]. unfold average. f_equal. apply sum_ext. intros x _. apply apart_l2; auto. exact (proj1 G).
Qed.
Print Assumptions C103_dropped_pixels.

(* for patches of 9, 13 and 19 every third place of the patch is dropped, counted row by row *)
Theorem C103_thirds : forall p, In p [9; 13; 19] -> forall i, added (patch_threads p) i = two_thirds i.
Proof. cbn [In]. intros p [<-|[<-|[<-|[]]]]; [ apply (added_thrice 96 5) | apply (added_thrice 192 6) | apply (added_thrice 384 7) ]; reflexivity. Qed.
Print Assumptions C103_thirds.

(* for all other odd patches up to 31 the graphics card can say that there is nothing to compare where the processor gives a distance *)
Theorem C103_patch_refuted : forall p, In p [9; 13; 17; 19; 21; 23; 25; 27; 29; 31] -> exists rows cols offs size roi1 roi2 d1 d2 r c k, dispatched rows cols (length offs) size false false = true /\
  0 < size /\ (forall q, length (d1 q) = size) /\ (forall q, length (d2 q) = size) /\ (0 <= r < rows)%Z /\ (0 <= c < cols)%Z /\ k < length offs /\
  (exists res, gpu_affinity rows cols offs size (Some roi1) (Some roi2) d1 d2 p res) /\ desc_affinity rows cols (Z.of_nat p) offs (Some roi1) (Some roi2) (fun a b => l2 (d1 a) (d2 b)) (r, c, k) = 1%R /\
  forall res, gpu_affinity rows cols offs size (Some roi1) (Some roi2) d1 d2 p res -> res (r, c, k) = (-1)%R.
Proof.
  intros p P. assert (D : exists i, i < p * p /\ added (patch_threads p) i = false).
  { cbn [In] in P. repeat (destruct P as [<-|P]; [ first [ exists 2; split; [ lia | vm_compute; reflexivity ] | exists 4; split; [ lia | vm_compute; reflexivity ] | exists 16; split; [ lia | vm_compute; reflexivity ] ] |]). destruct P. }
  assert (O : Nat.odd p = true) by (cbn [In] in P; repeat (destruct P as [<-|P]; [ reflexivity |]); destruct P).
  assert (N : p <> 1) by (cbn [In] in P; lia). assert (M : p <= 31) by (cbn [In] in P; lia). destruct D as (i & I & D). destruct (dropped_pixel p i O N M I D) as (Q1 & Q2 & S & W). set (q := pos p 32 32 i) in *.
  exists 65%Z, 65%Z, [0%Z], 2, (fun y x => (y =? fst q)%Z && (x =? snd q)%Z), (fun _ _ => true), (fun _ => [1; 0]%R), (fun _ => [0; 0]%R), 32%Z, 32%Z, 0.
  split; [ reflexivity |]. split; [ lia |]. split; [ reflexivity |]. split; [ reflexivity |]. split; [ lia |]. split; [ lia |]. split; [ cbn; lia |]. split; [ eexists; apply patch_exists; auto; cbn; lia |]. split.
  - rewrite desc_entry by (lia || (cbn; lia) || (intros; apply l2_pos)). cbv zeta. change (nth 0 [0%Z] 0%Z) with 0%Z. rewrite S. unfold average. cbn [sum fold_right length INR]. unfold l2. cbn [combine fold_left fst snd].
    replace (0 + (1 - 0) * (1 - 0) + (0 - 0) * (0 - 0))%R with 1%R by lra. rewrite sqrt_1. lra.
  - intros res G. rewrite (C103_dropped_pixels _ _ _ _ _ _ _ _ _ _ 32%Z 32%Z 0 G O N) by (try lia; try reflexivity; try (cbn; lia); left; cbn; lia). cbv zeta. change (nth 0 [0%Z] 0%Z) with 0%Z. rewrite S. cbn [filter]. now rewrite W.
Qed.
Print Assumptions C103_patch_refuted.

(* more than 254 offsets or larger patches are not refused by the processor, but there is no result from the graphics card *)
Theorem C103_limits_refuted : (exists rows cols offs size, dispatched rows cols (length offs) size true true = true /\ forall p d1 d2 res, ~ gpu_affinity rows cols offs size None None d1 d2 p res) /\
  exists rows cols offs size p, Nat.odd p = true /\ length offs <= 254 /\ dispatched rows cols (length offs) size true true = true /\ forall d1 d2 res, ~ gpu_affinity rows cols offs size None None d1 d2 p res.
Proof.
  split.
  - exists 9%Z, 9%Z, (repeat 0%Z 255), 2. split; [ reflexivity |]. intros p d1 d2 res [L _]. rewrite repeat_length in L. lia.
  - exists 9%Z, 9%Z, [0%Z], 2, 33. split; [ reflexivity |]. split; [ cbn; lia |]. split; [ reflexivity |]. intros d1 d2 res [_ G]. change (33 =? 1) with false in G. destruct G as [G _].
    unfold patch_threads, div_up in G. change (33 * 33 + 32 - 1) with 1120 in G. change (1120 / 32) with 35 in G. lia.
Qed.
Print Assumptions C103_limits_refuted.

(* the offsets are uploaded if they changed: one host thread always gets the offsets that it asks for *)
Theorem C103_offsets : forall thread cs offs, (forall c, In c cs -> fst c = thread) -> used cs (thread, offs) = offs.
Proof. exact used_alone. Qed.
Print Assumptions C103_offsets.

(* but what was uploaded is remembered by each host thread, and the device has one copy: with two threads one gets the offsets of the other *)
Theorem C103_two_threads_refuted : exists cs thread offs, used cs (thread, offs) <> offs /\ length (used cs (thread, offs)) = length offs /\ In (thread, offs) cs.
Proof. exists [(0, [1%Z; 2%Z]); (1, [5%Z; 6%Z])], 0, [1%Z; 2%Z]. vm_compute. split; [ discriminate |]. split; [ reflexivity | now left ]. Qed.
Print Assumptions C103_two_threads_refuted.

(* maps only go to the graphics card with both regions of interest or none ... *)
Theorem C103_dispatch : forall rows cols offsets size empty1 empty2, (dispatched rows cols offsets size empty1 empty2 = true -> empty1 = empty2 /\ rois_accepted empty1 empty2 = true) /\
  (dispatched rows cols offsets size empty1 empty1 = false <-> (rows * cols <= 64)%Z /\ offsets <= 16 /\ size <= 32).
Proof.
  intros rows cols offsets size empty1 empty2. split.
  - intro H. unfold dispatched in H. destruct empty1, empty2; (discriminate H || split; reflexivity).
  - unfold dispatched. rewrite Bool.eqb_reflx. cbn [andb]. rewrite !Bool.orb_false_iff, Z.ltb_ge, !Nat.ltb_ge. tauto.
Qed.
Print Assumptions C103_dispatch.

(* ... but the function for the graphics card does not refuse a second region that is missing *)
Theorem C103_rois_refuted : rois_accepted false true = true /\ rois_accepted true false = false.
Proof. split; reflexivity. Qed.
Print Assumptions C103_rois_refuted.

Example C103_ex_threads : l2_threads 64 = 64 /\ l2_threads 129 = 192 /\ patch_threads 3 = 32 /\ patch_threads 9 = 96 /\ patch_threads 15 = 256.
Proof. repeat split; reflexivity. Qed.
Example C103_ex_added : map (added 12) (seq 0 12) = [true; true; false; true; true; false; true; true; false; true; true; false] /\ forallb (added 16) (seq 0 16) = true.
Proof. split; reflexivity. Qed.
(* a descriptor of 80 numbers in a block of 64 threads *)
Example C103_ex_reduce : length (reduce 64 80) = 13 /\ length (reduce 64 40) = 6.
Proof. split; reflexivity. Qed.
