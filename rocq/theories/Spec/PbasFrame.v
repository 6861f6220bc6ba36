(* What the PBAS model should hold and decide. *)
From Coq Require Import ZArith QArith Qminmax List Bool.
From Verif Require Import Spec.Vibe Model.PbasFrame.
Import ListNotations.
Open Scope Z_scope.

(* observations (value and gradient together) of a pixel: in the initial image up to 3 pixels away, in later frames at the pixel itself *)
Definition observed (size : Z * Z) (first : frame) (later : list frame) (p : Z * Z) (v : list Z * list Z) : Prop :=
  (exists q, in_image size q /\ within 3 p q /\ v = (value first q, grad first q)) \/
  (exists f, In f later /\ v = (value f p, grad f p)).

(* images whose rows follow each other, as far as it matters *)
Definition gapless (m : mode) (size : Z * Z) (f : frame) : Prop := m = Grey -> stride f = fst size \/ snd size <= 1.
(* what is asked of a rounded square root *)
Definition rooted (m : mode) : Prop := match m with Grey => True | Colours root => (root 0%Z == 0)%Q /\ forall n, 0 <= n < 65536 -> (0 <= root n <= 256)%Q end.
Definition longest (m : mode) : Q := match m with Grey => 255 | Colours _ => 256 end.

Definition grey_pixel (v : list Z * list Z) : Prop := byte_pixel 1 (fst v) /\ byte_pixel 1 (snd v).
(* distance of grey observations for a mean gradient difference n *)
Definition gap (a b : list Z) : Q := inject_Z (Z.abs (hd 0 a - hd 0 b)).
Definition apart (n : Q) (v b : list Z * list Z) : Q := Qmin (10 / n * gap (snd v) (snd b) + gap (fst v) (fst b))%Q 255.
