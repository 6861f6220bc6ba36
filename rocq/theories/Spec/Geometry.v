From Coq Require Import ZArith List Bool QArith.
From Verif Require Import Lib.Grid Model.Geometry.
Open Scope Z_scope.

(** position (y,x) of the output image receives a pixel: it lies in the output rectangle and (if masked) its source pixel is selected *)
Definition receives (ir or : rect) (mask : option (Z -> Z -> bool)) (y x : Z) : bool :=
  (ry or <=? y) && (y <? ry or + rh or) && ((rx or <=? x) && (x <? rx or + rw or)) &&
  match mask with None => true | Some m => m (ry ir + (y - ry or)) (rx ir + (x - rx or)) end.
Definition coords_ok (r : rect) : Prop := - 2 ^ 30 <= rx r < 2 ^ 30 /\ - 2 ^ 30 <= ry r < 2 ^ 30 /\ 0 <= rw r < 2 ^ 30 /\ 0 <= rh r < 2 ^ 30 /\ rw r * rh r < 2 ^ 31.
Definition rect_in (r : rect) (rows cols : Z) : Prop := 0 <= rx r /\ 0 <= ry r /\ rx r + rw r <= cols /\ ry r + rh r <= rows.

(** documented border extensions *)
Definition wrap (p len : Z) : Z := p mod len.
Definition clamp (p len : Z) : Z := if p <? 0 then 0 else if len <=? p then len - 1 else p.
Definition mirror (p len : Z) : Z := if p <? 0 then - p - 1 else if len <=? p then 2 * len - 1 - p else p.
Definition mirror101 (p len : Z) : Z := if p <? 0 then - p else if len <=? p then 2 * len - 2 - p else p.
(** bilinear interpolation of a field sampled at integer positions *)
Definition bilinear (f : Z -> Z -> Q) (y x : Z) (sy sx : Q) : Q :=
  ((1 - sy) * ((1 - sx) * f y x + sx * f y (x + 1)%Z) + sy * ((1 - sx) * f (y + 1)%Z x + sx * f (y + 1)%Z (x + 1)%Z))%Q.
