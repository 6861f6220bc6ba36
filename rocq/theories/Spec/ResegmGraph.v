(* When the resegmentation graph has temporal cliques, in terms of pixels. *)
From Coq Require Import ZArith List Bool.
From Verif Require Import Model.ResegmGraph.
Local Open Scope Z_scope.

Definition sound_scene (s : scene) : Prop :=
  0 < srows s /\ 0 < scols s /\ forall i, 0 <= below_cost s i /\ 0 <= right_cost s i /\ 0 <= temporal_cost s i.
(* a coordinate is moved into the image *)
Definition into (v n : Z) : Z := if v <? 0 then 0 else if n <=? v then n - 1 else v.
(* after the first frame, a pixel of the mask with even coordinates is moved to a pixel of the mask *)
Definition has_link (s : scene) : Prop := 1 <= frames s /\ exists cam row col, 0 <= cam < 2 /\ 0 <= row < srows s /\ 0 <= col < scols s /\
  Z.even row = true /\ Z.even col = true /\ mask_of s cam row col = true /\
  mask_of s cam (into (fst (motion s cam row col)) (srows s)) (into (snd (motion s cam row col)) (scols s)) = true.
(* what different labels of neighbours in an image and of linked pixels cost, for the pixel number i *)
Definition apart (x : Z -> Z) (i j w : Z) : Z := if x i =? x j then 0 else w.
Definition costs_at (s : scene) (x : Z -> Z) (i : Z) : Z :=
  let col := i mod scols s in
  let row := (i / scols s) mod srows s in
  let plane := i / (scols s * srows s) in
  let p := motion s (plane / 2) row col in
  let j := (plane - 1) * (scols s * srows s) + into (fst p) (srows s) * scols s + into (snd p) (scols s) in
  label_cost s i (x i) +
  (if (row <? srows s - 1) && mask_of s (plane / 2) (row + 1) col then apart x i (i + scols s) (below_cost s i) else 0) +
  (if (col <? scols s - 1) && mask_of s (plane / 2) row (col + 1) then apart x i (i + 1) (right_cost s i) else 0) +
  (if (1 <=? frames s) && Z.odd plane && Z.even row && Z.even col && mask_of s (plane / 2) (into (fst p) (srows s)) (into (snd p) (scols s)) then apart x i j (temporal_cost s i) else 0).
