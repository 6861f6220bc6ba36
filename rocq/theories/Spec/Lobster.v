(* What the LOBSTER model should hold and decide. *)
From Coq Require Import ZArith List Bool.
From Verif Require Import Lib.Grid Spec.Lbsp Spec.Vibe Model.Lobster.
Import ListNotations.
Open Scope Z_scope.

(* images of k interleaved channels as byte buffers: the values at a point, and those around it in one channel *)
Definition value (k : Z) (size : Z * Z) (img : Z -> Z) (p : Z * Z) (ch : Z) : Z := img ((fst size * snd p + fst p) * k + ch).
Definition around (k : Z) (size : Z * Z) (img : Z -> Z) (p : Z * Z) (ch : Z) : list Z :=
  map (fun o => value k size img (fst p + fst o, snd p + snd o) ch) pattern.
Definition byte_image (img : Z -> Z) : Prop := forall i, 0 <= img i <= 255.
(* points whose surroundings are all in the image *)
Definition inner (size p : Z * Z) : Prop := 2 <= fst p < fst size - 2 /\ 2 <= snd p < snd size - 2.

(* how many of the neighbours do not compare with the reference as the descriptor says *)
Definition mismatch (vals : list Z) (ref thr d : Z) : Z :=
  count (fun nv => xorb (thr <? Z.abs (snd nv - ref)) (Z.testbit d (Z.of_nat (fst nv)))) (combine (seq 0 16) vals).

(* colours b and descriptors d are those of the point q of an image *)
Definition taken (k : Z) (lut : Z -> Z) (size : Z * Z) (img : Z -> Z) (q : Z * Z) (b d : Z -> Z) : Prop :=
  forall ch, 0 <= ch < k -> b ch = value k size img q ch /\ 0 <= d ch < 2 ^ 16 /\ mismatch (around k size img q ch) (b ch) (lut (b ch)) (d ch) = 0.

(* a pixel matches a sample: the colours are near, and its surroundings compare with the colour of the sample as those of the sample did *)
Definition similar (k cthr tthr : Z) (lut : Z -> Z) (size : Z * Z) (img : Z -> Z) (p : Z * Z) (b d : Z -> Z) : Prop :=
  let colour ch := Z.abs (value k size img p ch - b ch) in
  let texture ch := mismatch (around k size img p ch) (b ch) (lut (b ch)) (d ch) in
  if k =? 1 then colour 0 <= cthr / 2 /\ texture 0 <= tthr
  else (forall ch, 0 <= ch < 3 -> colour ch <= cthr * 3 / 2 /\ texture ch <= tthr * 3 / 2) /\
       colour 0 + colour 1 + colour 2 <= cthr * 3 /\ texture 0 + texture 1 + texture 2 <= tthr * 3.

(* the image with the pixels that are not listed made black *)
Definition masked (k : Z) (size : Z * Z) (pxs : list Z) (img im : Z -> Z) : Prop := forall p ch, in_image size p -> 0 <= ch < k ->
  (In (place size p) pxs -> value k size im p ch = value k size img p ch) /\ (~ In (place size p) pxs -> value k size im p ch = 0).
Definition uniform (k : Z) (size : Z * Z) (tint im : Z -> Z) : Prop := forall p ch, in_image size p -> 0 <= ch < k -> value k size im p ch = tint ch.
(* the images of a history: those of the frames that are accepted *)
Definition frames (l : list event) : list (Z -> Z) := flat_map (fun e => match e with Frame img rate => if 0 <? rate then [img] else [] | Refresh _ _ => [] end) l.
Definition bytes_only (l : list event) : Prop := Forall (fun e => match e with Frame img _ => byte_image img | Refresh _ _ => True end) l.
