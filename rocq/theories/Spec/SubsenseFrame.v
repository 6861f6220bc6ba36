(* What SuBSENSE should hold and decide, on whole frames. *)
From Coq Require Import ZArith QArith List Bool.
From Verif Require Import Lib.Grid Spec.Vibe Spec.Lobster Model.Lobster.
From Verif Require Spec.Subsense Model.SubsenseFrame.
Import ListNotations.
Open Scope Z_scope.

(* how far a pixel is from a sample of colours b and textures d in one channel: in colour, and in texture on average between
   its own colour and the colour of the sample as references *)
Definition gap (k : Z) (lut : Z -> Z) (size : Z * Z) (img : Z -> Z) (p : Z * Z) (b d : Z -> Z) (ch : Z) : Z * Z :=
  let v := value k size img p ch in
  let around := around k size img p ch in
  (Z.abs (v - b ch), (mismatch around v (lut v) (d ch) + mismatch around (b ch) (lut (b ch)) (d ch)) / 2).
Definition gaps (k : Z) (lut : Z -> Z) (size : Z * Z) (img : Z -> Z) (p : Z * Z) (b d : Z -> Z) : list (Z * Z) := map (gap k lut size img p b d) (zrange 0 k).

(* colours and textures as they are kept of a point q: those of an image, those of a point which is not looked at, which are zero,
   or the colours of the first image without texture, for points of the first row and column that are looked at *)
Definition observed (k : Z) (table : (Z -> Z) -> Prop) (size : Z * Z) (images : (Z -> Z) -> Prop) (q : Z * Z) (b d : Z -> Z) : Prop :=
  exists im lut, images im /\ table lut /\ taken k lut size im q b d.
Definition blank (k : Z) (b d : Z -> Z) : Prop := forall ch, 0 <= ch < k -> b ch = 0 /\ d ch = 0.
Definition flat (k : Z) (size : Z * Z) (first : Z -> Z) (q : Z * Z) (b d : Z -> Z) : Prop :=
  (fst q = 2 \/ snd q = 2) /\ forall ch, 0 <= ch < k -> b ch = value k size first q ch /\ d ch = 0.

(* the thresholds of textures: not below the first ones and the floor, not above the first ones and the top *)
Definition table (c : SubsenseFrame.config) (lut : Z -> Z) : Prop := forall t, 0 <= t <= 255 ->
  Z.min (SubsenseFrame.first_lut c t) (SubsenseFrame.least c t) <= lut t <= Z.max (SubsenseFrame.first_lut c t) (SubsenseFrame.most c).
(* what may be kept of a point q, depending on whether it is looked at *)
Definition kept (c : SubsenseFrame.config) (size : Z * Z) (pxs : list Z) (first : Z -> Z) (images : (Z -> Z) -> Prop) (q : Z * Z) (b d : Z -> Z) : Prop :=
  (In (place size q) pxs /\ observed (SubsenseFrame.ch c) (table c) size images q b d) \/
  (~ In (place size q) pxs /\ blank (SubsenseFrame.ch c) b d) \/
  (In (place size q) pxs /\ flat (SubsenseFrame.ch c) size first q b d).

(* the images of a history *)
Definition frames (l : list SubsenseFrame.event) : list (Z -> Z) := flat_map (fun e => match e with SubsenseFrame.Frame img _ _ => [img] | SubsenseFrame.Refresh _ _ => [] end) l.
Definition proper (l : list SubsenseFrame.event) : Prop :=
  Forall (fun e => match e with SubsenseFrame.Frame img _ ratio => byte_image img /\ (0 <= ratio)%Q | SubsenseFrame.Refresh _ _ => True end) l.
