(* What a loaded packet shows of an image of the data set. *)
From Coq Require Import ZArith QArith List.
From Verif Require Import Model.Producer.
Import ListNotations.
Open Scope Z_scope.

Definition well_formed (im : image) : Prop :=
  0 < rows im /\ 0 < cols im /\ 0 < chans im /\ forall y x, 0 <= y < rows im -> 0 <= x < cols im -> Z.of_nat (length (px im y x)) = chans im.
(* colours with alpha or grey values can be made from three channels of these depths: 8-bit, 16-bit unsigned, 32-bit floating point *)
Definition usual_depth (d : Z) : Prop := d = 0 \/ d = 2 \/ d = 5.
Definition convertible (i : info) (im : image) : Prop :=
  idepth i = depth im /\ (ichans i = chans im \/ chans im = 3 /\ (ichans i = 4 \/ ichans i = 1) /\ usual_depth (depth im)).
(* the largest value of an alpha channel *)
Definition full_alpha (d : Z) : Z := if d =? 0 then 255 else if d =? 2 then 65535 else 1.
(* the packet o shows the image f: it has the size and type that were announced, and each of its pixels is the pixel of f with the same relative position *)
Definition shows (grey : list Z -> Z) (i : info) (f o : image) : Prop :=
  isize i = Some (rows o, cols o) /\ idepth i = depth o /\ ichans i = chans o /\
  forall y x, 0 <= y < rows o -> 0 <= x < cols o -> exists r c, 0 <= r < rows f /\ 0 <= c < cols f /\
    r * rows o <= y * rows f < (r + 1) * rows o /\ c * cols o <= x * cols f < (c + 1) * cols o /\
    px o y x = if ichans i =? chans f then px f r c else if ichans i =? 4 then px f r c ++ [full_alpha (depth f)] else [grey (px f r c)].
Definition is_index (i : Z) : Prop := 0 <= i < size_max.
(* the reader stays behind the last frame when it is sent to a position without a frame *)
Definition stays_out (r : reader) : Prop := forall p, ~ 0 <= p < Z.of_nat (length (frames r)) -> ~ 0 <= seek r p < Z.of_nat (length (frames r)).
(* the image in a file *)
Definition file_at (fs : list (option image)) (i : Z) : option image := match nth_error fs (Z.to_nat i) with Some (Some f) => Some f | _ => None end.
(* the images that can be read, in order *)
Definition readable (fs : list (option image)) : list image := flat_map (fun o => match o with Some f => [f] | None => [] end) fs.
Definition all_same (l : list info) : Prop := forall a b, In a l -> In b l -> a = b.
