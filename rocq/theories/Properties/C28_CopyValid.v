(** C28: copyValidPixelsTo. *)
From Coq Require Import ZArith List Lia.
From Verif Require Import Lib.Grid Model.Geometry Spec.Geometry Proofs.Geometry.
Import ListNotations.
Open Scope Z_scope.

(** every output pixel inside the output rectangle (and selected by the mask) receives its source pixel, all others keep their value,
    the return value is the number of pixels written and the reported rectangle is the visible part *)
Theorem C28_copies_exactly_the_overlap : forall A (img out : image A) ir or mask,
  0 < irows img -> 0 < icols img -> 0 < irows out < 2 ^ 30 -> 0 < icols out < 2 ^ 30 ->
  coords_ok ir -> coords_ok or -> rw ir = rw or -> rh ir = rh or -> rect_in ir (irows img) (icols img) ->
  exists valid out', copyValidPixelsTo img ir out or mask =
      Copied (count (fun p => receives ir or mask (fst p) (snd p)) (grid 0 (irows out) 0 (icols out))) valid out' /\
    irows out' = irows out /\ icols out' = icols out /\
    (forall y x, 0 <= y < irows out -> 0 <= x < icols out ->
       px out' y x = if receives ir or mask y x then px img (ry ir + (y - ry or)) (rx ir + (x - rx or)) else px out y x) /\
    (forall y x, 0 <= y < irows out -> 0 <= x < icols out -> inside valid y x = receives ir or None y x).
Proof. exact @copy_correct. Qed.
Print Assumptions C28_copies_exactly_the_overlap.

(** a rectangle with two negative sides has positive area, passes the empty check and is only stopped by OpenCV's own assertion *)
Theorem C28_negative_rectangle_not_empty_refuted : exists (img out : image Z) ir or, rw ir < 0 /\ rh ir < 0 /\ rw ir = rw or /\ rh ir = rh or /\
  copyValidPixelsTo img ir out or None = CopyThrows.
Proof. exists (Img 4 4 (fun y x => 0)), (Img 4 4 (fun y x => 0)), (Rect 2 2 (-1) (-1)), (Rect 2 2 (-1) (-1)). repeat split; lia. Qed.
Print Assumptions C28_negative_rectangle_not_empty_refuted.

Example C28_ex_corner : let img := Img 5 5 (fun y x => 10 * y + x) in let out := Img 4 4 (fun _ _ => -1) in
  let ir := Rect 1 1 3 3 in let or := Rect (-1) 2 3 3 in
  coords_ok ir /\ coords_ok or /\ rect_in ir 5 5 /\
  match copyValidPixelsTo img ir out or None with
  | Copied n v o => n = 4 /\ v = Rect 0 2 2 2 /\ map (fun p => px o (fst p) (snd p)) (grid 2 2 0 3) = [12; 13; -1; 22; 23; -1]
  | _ => False end.
Proof. repeat split; try (cbn; lia); reflexivity. Qed.
