(* What LOBSTER should keep and decide on the graphics card. Samples resemble pixels as in Spec/Lobster.v. *)
From Coq Require Import ZArith List Bool.
From Verif Require Import Lib.Grid Spec.Lbsp Spec.Vibe Model.Lobster Spec.Lobster Model.GpuLobster.
Import ListNotations.
Open Scope Z_scope.

(* colours and textures of a sample in the buffer, by channel of the frame *)
Definition colours_of (c : config) (size : Z * Z) (m : Z -> Z) (p : Z * Z) (s : nat) (ch : Z) : Z := m (host_colour c size p s (swap c ch)).
Definition textures_of (c : config) (size : Z * Z) (m : Z -> Z) (p : Z * Z) (s : nat) (ch : Z) : Z := m (host_texture c size p s (swap c ch)).
(* the channels that are compared *)
Definition compared (c : config) (ch : Z) : Prop := 0 <= ch < (if channels c =? 4 then 3 else 1).
(* a frame and a buffer that fit *)
Definition fits (c : config) (size : Z * Z) : Prop := (channels c = 1 \/ channels c = 4) /\ (0 < samples c)%nat /\ 0 < fst size /\ 0 < snd size /\ fst size * snd size <= 2 ^ 32.
(* the words of a pixel *)
Definition owns (c : config) (size p : Z * Z) (a : Z) : Prop := exists s ch, (s < samples c)%nat /\ 0 <= ch < channels c /\ (a = host_colour c size p s ch \/ a = host_texture c size p s ch).
