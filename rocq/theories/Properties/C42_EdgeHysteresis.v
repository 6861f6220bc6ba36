(** C42: hysteresis of the LBSP edge detector. *)
From Coq Require Import ZArith List Bool.
From Verif Require Import Model.EdgeDetector Spec.EdgeDetector Proofs.EdgeHysteresis Proofs.EdgeGradient Proofs.EdgeDetector.
Import ListNotations.
Open Scope Z_scope.

(** labelling and flood fill over any candidate and strong sets with no candidate in the first and last row: they stop, never leave the label map or
    the stack (the result is not None), and label 2 exactly the pixels linked through candidates to a strong candidate *)
Theorem C42_components : forall H W (cand strong : Z -> Z -> bool), 0 <= W -> (forall c, cand 0 c = false) -> (forall c, cand (H - 1) c = false) ->
  forall stale oldcap, 0 <= H ->
  exists fuel0 s, (forall fuel, (fuel0 <= fuel)%nat -> hysteresis H W cand strong fuel stale oldcap = Some s) /\
    (forall p, inside_image H W p -> (mp s (fst p) (snd p + 2) = 2 <->
       edge (fun q => inside_image H W q /\ cand (fst q) (snd q) = true) (fun q => strong (fst q) (snd q) = true) p)) /\
    (forall p, inside_image H W p -> mp s (fst p) (snd p + 2) = 0 \/ mp s (fst p) (snd p + 2) = 1 \/ mp s (fst p) (snd p + 2) = 2) /\
    (forall y x, ~ 0 <= y < H -> mp s y x = mp (init H W stale oldcap) y x).
Proof. exact hysteresis_result. Qed.
Print Assumptions C42_components.

(** the whole mask from the gradients: output row i shows the edges of image row i+2, the last two rows show the previous contents of the buffer *)
Theorem C42_mask : forall (g : nat -> Z -> Z -> grad) H W L low high, (0 < L)%nat ->
  (forall l r c, 0 <= snd (g l r c) <= 127) -> (forall r c, r = 0 \/ r = H - 1 -> snd (g 0%nat r c) = 0) ->
  forall stale oldcap, 0 <= H -> 0 <= W ->
  let f := accumulate g H W L in
  exists fuel0 out, (forall fuel, (fuel0 <= fuel)%nat -> edge_mask g H W L low high fuel stale oldcap = Some out) /\
    (forall i j, 0 <= i < H - 2 -> 0 <= j < W ->
       (out i j = 255 <-> edge (fun q => inside_image H W q /\ candidate f H W low (fst q) (snd q) = true) (fun q => high <= mag_at f H W (fst q) (snd q)) (i + 2, j)) /\
       (out i j = 0 \/ out i j = 255)) /\
    (forall i j, 0 <= i < H -> H - 2 <= i -> out i j = (- Z.shiftr (stale (i + 2) (j + 2)) 1) mod 256).
Proof. exact mask_ok. Qed.
Print Assumptions C42_mask.

(** hence the mask is not aligned with the image: a short horizontal edge at row 4 of a 7x7 image is reported at row 2 and not at row 4 *)
Definition line_at (row : Z) (l : nat) (r c : Z) : grad := if (r =? row) && ((2 <=? c) && (c <=? 4)) then (0, -1, 16) else (0, 0, 0).
Theorem C42_aligned_refuted : exists g H W L low high fuel out, (forall l r c, 0 <= snd (g l r c) <= 127) /\ (forall r c, r < 2 \/ H - 2 <= r -> snd (g 0%nat r c) = 0) /\
  edge_mask g H W L low high fuel (fun _ _ => 0) 0 = Some out /\
  candidate (accumulate g H W L) H W low 4 3 = true /\ high <= mag_at (accumulate g H W L) H W 4 3 /\ out 4 3 = 0 /\
  candidate (accumulate g H W L) H W low 2 3 = false /\ out 2 3 = 255.
Proof.
  exists (line_at 4), 7, 7, 1%nat, 5, 10, 100%nat.
  destruct (edge_mask (line_at 4) 7 7 1 5 10 100 (fun _ _ => 0) 0) as [out|] eqn:E; [| exfalso; revert E; vm_compute; discriminate ].
  exists out. split. { intros l r c. unfold line_at. destruct ((r =? 4) && ((2 <=? c) && (c <=? 4))); cbn; split; discriminate. }
  split. { intros r c B. unfold line_at. destruct (Z.eqb_spec r 4) as [->|N]; [ destruct B as [B|B]; vm_compute in B; [ discriminate | exfalso; now apply B ] | reflexivity ]. }
  split; [ reflexivity |]. assert (V : out 4 3 = 0 /\ out 2 3 = 255).
  { assert (Q : match edge_mask (line_at 4) 7 7 1 5 10 100 (fun _ _ => 0) 0 with Some o => (o 4 3, o 2 3) = (0, 255) | None => False end) by (vm_compute; reflexivity).
    rewrite E in Q. split; congruence. }
  destruct V as [V1 V2]. repeat split; auto; vm_compute; congruence.
Qed.
Print Assumptions C42_aligned_refuted.

(** and the last two rows depend on earlier calls: after an 9-row image, a blank 5-row image of the same width is given edges *)
Theorem C42_blank_image_refuted : exists g1 s1 out, (forall r c, r < 2 \/ 7 <= r -> snd (g1 0%nat r c) = 0) /\
  edge_state g1 9 7 1 5 10 100 (fun _ _ => 0) 0 = Some s1 /\
  edge_mask (fun _ _ _ => (0, 0, 0)) 5 7 1 5 10 100 (mp s1) (cap s1) = Some out /\ out 3 3 = 255.
Proof.
  exists (line_at 5).
  destruct (edge_state (line_at 5) 9 7 1 5 10 100 (fun _ _ => 0) 0) as [s1|] eqn:E; [| exfalso; revert E; vm_compute; discriminate ].
  assert (Q : match edge_state (line_at 5) 9 7 1 5 10 100 (fun _ _ => 0) 0 with
              | Some s => match edge_mask (fun _ _ _ => (0, 0, 0)) 5 7 1 5 10 100 (mp s) (cap s) with Some o => o 3 3 = 255 | None => False end | None => False end) by (vm_compute; reflexivity).
  rewrite E in Q. exists s1. destruct (edge_mask (fun _ _ _ => (0, 0, 0)) 5 7 1 5 10 100 (mp s1) (cap s1)) as [out|]; [| destruct Q ].
  exists out. split; [| auto ]. intros r c B. unfold line_at. destruct (Z.eqb_spec r 5) as [->|N]; [ destruct B as [B|B]; vm_compute in B; [ discriminate | exfalso; now apply B ] | reflexivity ].
Qed.
Print Assumptions C42_blank_image_refuted.

(** weak pixels touching a strong one are kept, others are not: row 3 has magnitudes 6 12 6 . 6 *)
Definition weak_line (l : nat) (r c : Z) : grad :=
  if r =? 3 then (0, 1, if c =? 3 then 12 else if (c =? 2) || (c =? 4) || (c =? 6) then 6 else 0) else (0, 0, 0).
Example C42_ex_line : match edge_mask weak_line 7 9 1 5 10 200 (fun _ _ => 0) 0 with
  | Some out => map (out 1) [0; 1; 2; 3; 4; 5; 6; 7; 8] = [0; 0; 255; 255; 255; 0; 0; 0; 0] /\ map (out 3) [2; 3; 4] = [0; 0; 0] | None => False end.
Proof. vm_compute. auto. Qed.
