(* What the users of keypoints expect. *)
From Coq Require Import ZArith QArith List.
From Verif Require Import Lib.Grid Model.KeyPoints.
Import ListNotations.
Open Scope Z_scope.

(* the pixels at distance at most b around (r,c), in rows and columns, are pixels of the image *)
Definition fits (rows cols b r c : Z) : Prop := forall dy dx, Z.abs dy <= b -> Z.abs dx <= b -> 0 <= r + dy < rows /\ 0 <= c + dx < cols.
(* a window of h rows and w columns (both odd) around (r,c) lies in the image *)
Definition window_fits (rows cols h w r c : Z) : Prop := 0 <= r - h / 2 /\ r + h / 2 < rows /\ 0 <= c - w / 2 /\ c + w / 2 < cols.
(* the coordinates are whole numbers *)
Definition whole (k : keypoint) : Prop := exists r c, k = at_pixel r c.
(* the nearest whole number, the even one of two *)
Definition rounded (q : Q) (n : Z) : Prop := (inject_Z n - (1 # 2) <= q /\ q <= inject_Z n + (1 # 2))%Q /\ ((q == inject_Z n - (1 # 2) \/ q == inject_Z n + (1 # 2))%Q -> Z.even n = true).
