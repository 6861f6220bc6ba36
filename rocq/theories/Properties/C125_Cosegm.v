From Coq Require Import ZArith List Bool Lia.
From Verif Require Import Lib.Grid Model.RoiTable Spec.RoiTable Model.Cosegm Spec.Cosegm Proofs.Cosegm.
Import ListNotations.
Open Scope Z_scope.

(* initialization succeeds exactly if each image is not empty, and its region has its size and a pixel away from the border; then each region is the one meant without its border, and the counts are those of its pixels before and after, and of the image *)
Theorem C125_initialize : forall b ins ss, 0 <= b -> length ins = length ss -> (snd (initialize b ins ss) = true <-> Forall (usable b) ins) /\ (snd (initialize b ins ss) = true -> Forall2 (ready b) ins (fst (initialize b ins ss))).
Proof. exact initialize_spec. Qed.
Print Assumptions C125_initialize.
(* so then each region has pixels, not more than before, and not more than the image *)
Theorem C125_counts : forall b ins ss, 0 <= b -> length ins = length ss -> snd (initialize b ins ss) = true -> Forall (fun s => 0 < final s <= orig s /\ orig s <= total s) (fst (initialize b ins ss)).
Proof.
  intros b ins ss B L T. destruct (initialize_spec b ins ss B L) as [U Q]. specialize (Q T). apply U in T. clear U. revert Q T. generalize (fst (initialize b ins ss)). clear L. intros k Q. induction Q as [|i s ins' ss' R Q IH]; [constructor|]. intros T. apply Forall_cons_iff in T. destruct T as [T1 T2]. constructor; [exact (ready_counts b i s B T1 R)|exact (IH T2)].
Qed.
Print Assumptions C125_counts.
(* setting regions succeeds exactly if each is not empty, has a pixel, and is not smaller than its two borders; then the array passed holds the regions stored, without borders, and the counts stay; otherwise what was stored stays *)
Theorem C125_set : forall b ms ss, 0 <= b -> length ms = length ss -> let '(ms', ss', ok) := setROIs b ms ss in
  (ok = true <-> Forall (settable b) ms) /\
  (ok = true -> getROIsCopy ss' = ms' /\ Forall2 (fun m m' => cleaned b (at_ m) (rows m) (cols m) m') ms ms' /\ map (fun s => (orig s, final s, total s)) ss' = map (fun s => (orig s, final s, total s)) ss) /\
  (ok = false -> ss' = ss).
Proof.
  intros b ms ss B L. unfold setROIs. destruct (validate_spec b ms B) as [V W]. destruct (validateROIs b ms) as [ms' ok]. cbn [fst snd] in *. split; [exact V|]. destruct ok; (split; [|intros X; try discriminate X; reflexivity]); [|discriminate].
  intros _. specialize (W eq_refl). assert (L' : length ms' = length ss) by (rewrite <- (Forall2_len _ _ _ W); exact L). destruct (store_spec ms' ss L') as [S1 S2]. split; [exact S1|]. split; [exact W|exact S2].
Qed.
Print Assumptions C125_set.
(* the regions of an initialized algorithm can be read and set again, which changes none of their pixels *)
Theorem C125_again : forall b ins ss, 0 <= b -> length ins = length ss -> snd (initialize b ins ss) = true -> let ss' := fst (initialize b ins ss) in let '(ms, ss2, ok) := setROIs b (getROIsCopy ss') ss' in
  ok = true /\ Forall2 same (getROIsCopy ss') (getROIsCopy ss2).
Proof.
  intros b ins ss B L T ss'. subst ss'. destruct (initialize_spec b ins ss B L) as [U Q]. specialize (Q T). apply U in T. set (ss' := fst (initialize b ins ss)) in *. clearbody ss'.
  assert (L' : length (getROIsCopy ss') = length ss') by apply map_length. assert (X := C125_set b (getROIsCopy ss') ss' B L'). destruct (setROIs b (getROIsCopy ss') ss') as [[ms ss2] ok]. destruct X as (X1 & X2 & _).
  assert (O : ok = true). { apply X1. unfold getROIsCopy. clear -B T Q. revert T. induction Q as [|i s ins' r R Q IH]; intros T; [constructor|]. apply Forall_cons_iff in T. destruct T as [T1 T2]. cbn [map]. constructor; [exact (ready_settable b i s B T1 R)|exact (IH T2)]. }
  split; [exact O|]. destruct (X2 O) as (E & F & _). rewrite E. unfold getROIsCopy in *. clear -Q F. revert ms F. induction Q as [|i s ins' r R Q IH]; intros ms F; cbn [map] in *; inversion F; subst; constructor.
  - destruct i as [[h w] g]. destruct R as (v & _ & C & _). eapply shrunk_twice; [exact C|assumption].
  - apply IH. assumption.
Qed.
Print Assumptions C125_again.
(* but setting a region whose pixels are all close to the border is accepted: no pixel is left in it, while the count of its pixels says there are *)
Theorem C125_set_refuted : exists b i m, let ss := fst (initialize b [i] [Slot (Mask 0 0 (fun _ _ => 0)) 0 0 0]) in snd (initialize b [i] [Slot (Mask 0 0 (fun _ _ => 0)) 0 0 0]) = true /\
  let '(_, ss', ok) := setROIs b [m] ss in ok = true /\ map (fun s => (nonzero (roi s), final s)) ss' = [(0, 6)] /\ snd (initialize b [(4, 5, m)] ss) = false.
Proof. exists 1, (4, 5, Mask 0 0 (fun _ _ => 0)), (Mask 4 5 (fun y _ => if y =? 0 then 255 else 0)). vm_compute. repeat split; reflexivity. Qed.
Print Assumptions C125_set_refuted.
(* nor has the size of a region set to be that of the image *)
Theorem C125_size_refuted : exists b i m, let ss := fst (initialize b [i] [Slot (Mask 0 0 (fun _ _ => 0)) 0 0 0]) in
  let '(_, ss', ok) := setROIs b [m] ss in ok = true /\ map (fun s => (rows (roi s) * cols (roi s), total s)) ss' = [(9, 20)].
Proof. exists 1, (4, 5, Mask 0 0 (fun _ _ => 0)), (Mask 3 3 (fun _ _ => 255)). vm_compute. split; reflexivity. Qed.
Print Assumptions C125_size_refuted.
(* a failed initialization can leave the new region for one input and the old one for the next *)
Theorem C125_failed_refuted : exists b ins ss, snd (initialize b ins ss) = false /\ map (fun s => (rows (roi s), cols (roi s))) ss = [(8, 8); (8, 8)] /\ map (fun s => (rows (roi s), cols (roi s))) (fst (initialize b ins ss)) = [(4, 5); (8, 8)].
Proof. exists 1, [(4, 5, Mask 0 0 (fun _ _ => 0)); (4, 5, Mask 4 5 (fun y _ => if y =? 0 then 255 else 0))], (let s := Slot (Mask 8 8 (fun _ _ => 255)) 64 36 64 in [s; s]). vm_compute. repeat split; reflexivity. Qed.
Print Assumptions C125_failed_refuted.
(* and a failed setting can change the array passed *)
Theorem C125_argument_refuted : exists b ms ss, let '(ms', _, ok) := setROIs b ms ss in ok = false /\ map nonzero ms = [20; 1] /\ map nonzero ms' = [6; 1].
Proof. exists 1, [Mask 4 5 (fun _ _ => 255); Mask 1 1 (fun _ _ => 255)], (let s := Slot (Mask 8 8 (fun _ _ => 255)) 64 36 64 in [s; s]). vm_compute. repeat split; reflexivity. Qed.
Print Assumptions C125_argument_refuted.

(* an image without a region given, and one with the upper half given *)
Example C125_ex : let s := Slot (Mask 0 0 (fun _ _ => 0)) 0 0 0 in let r := initialize 1 [(4, 5, Mask 0 0 (fun _ _ => 0)); (6, 6, Mask 6 6 (fun y _ => if y <? 3 then 255 else 0))] [s; s] in
  snd r = true /\ map (fun s => (orig s, final s, total s)) (fst r) = [(20, 6, 20); (18, 8, 36)].
Proof. vm_compute. split; reflexivity. Qed.
