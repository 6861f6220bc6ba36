(** C68: archived masks are greyed outside the region of interest and score the same inside it. *)
From Coq Require Import ZArith List Bool Lia.
From Verif Require Import Lib.Grid Model.Metrics Spec.Metrics Spec.MetricsTree Model.Greying Proofs.Greying.
Import ListNotations.
Open Scope Z_scope.

(** a mask is recognised by its values *)
Theorem C68_binary : forall o, 0 <= mrows o -> 0 <= mcols o -> (is_binary o = true <-> forall i j, 0 <= i < mrows o -> 0 <= j < mcols o -> at_ o i j = 255 \/ at_ o i j = 0).
Proof. exact binary_iff. Qed.
Print Assumptions C68_binary.
(** every pixel is kept, but for those of a mask outside a region of interest of its size, which become 127 *)
Theorem C68_pixels : forall b roi o i j, 0 <= i < mrows o -> 0 <= j < mcols o -> (forall i j, 0 <= at_ o i j < 256) ->
  mrows (saved b roi o) = mrows o /\ mcols (saved b roi o) = mcols o /\
  at_ (saved b roi o) i j =
  match roi with
  | Some r => if b && is_binary o && ((mrows r =? mrows o) && (mcols r =? mcols o)) && (at_ r i j =? 0) then 127 else at_ o i j
  | None => at_ o i j
  end.
Proof. intros b roi o i j I J B. destruct (saved_size b roi o) as (S1 & S2 & _). exact (conj S1 (conj S2 (saved_at b roi o i j I J B))). Qed.
Print Assumptions C68_pixels.
(** the archived image gives the same counts and the same colours with the same region of interest *)
Theorem C68_score : forall c b o g r, (forall i j, 0 <= at_ o i j < 256) -> frame_ok o (Some g) (Some r) ->
  accumulate_mats c (saved b (Some r) o) (Some g) (Some r) = accumulate_mats c o (Some g) (Some r).
Proof. exact score_same. Qed.
Print Assumptions C68_score.
Theorem C68_colour : forall b o g r i j, (forall i j, 0 <= at_ o i j < 256) -> 0 <= i < mrows o -> 0 <= j < mcols o ->
  colour (at_ (saved b (Some r) o) i j) g (Some (at_ r i j)) = colour (at_ o i j) g (Some (at_ r i j)).
Proof. exact colour_same. Qed.
Print Assumptions C68_colour.
(** saving what was saved changes nothing more *)
Theorem C68_idempotent : forall b roi o i j, (forall i j, 0 <= at_ o i j < 256) -> 0 <= i < mrows o -> 0 <= j < mcols o -> at_ (saved b roi (saved b roi o)) i j = at_ (saved b roi o) i j.
Proof. exact saved_twice. Qed.
Print Assumptions C68_idempotent.
(** without the region of interest the archived image scores otherwise *)
Definition one (v : Z) : mat := Mat 1 1 1 (fun _ => v).
Theorem C68_score_without_roi_refuted : exists o g r, frame_ok o (Some g) (Some r) /\ (forall i j, 0 <= at_ o i j < 256) /\
  accumulate_mats zero_counters (saved true (Some r) o) (Some g) None <> accumulate_mats zero_counters o (Some g) None.
Proof.
  exists (one 255), (one 255), (one 0). split; [|split].
  - split; [reflexivity|]. split; [reflexivity|]. split; [reflexivity|]. split; intros x E; inversion E; repeat split.
  - intros i j. unfold at_. cbn. lia.
  - vm_compute. discriminate.
Qed.
Print Assumptions C68_score_without_roi_refuted.

Definition mask : mat := Mat 2 2 2 (fun a => if a =? 1 then 0 else 255).
Definition region : mat := Mat 2 2 2 (fun a => if a =? 3 then 0 else 1).
Example C68_ex : map (fun p => at_ (saved true (Some region) mask) (fst p) (snd p)) (grid 0 2 0 2) = [255; 0; 255; 127] /\
  map (fun p => at_ (saved true (Some mask) region) (fst p) (snd p)) (grid 0 2 0 2) = [1; 1; 1; 0] /\
  accumulate_mats zero_counters (saved true (Some region) mask) (Some mask) (Some region) = Some (Cnt 2 1 0 0 0 1).
Proof. vm_compute. repeat split. Qed.
