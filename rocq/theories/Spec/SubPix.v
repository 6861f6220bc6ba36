(* Bilinear interpolation: the sum over all pixels, each weighted by how near it is in both directions. *)
From Coq Require Import ZArith List.
From Verif Require Import Lib.Grid.
Import ListNotations.
Open Scope Z_scope.

(* the weight of the pixel at i for the place x/d, in d-ths *)
Definition near (d x i : Z) : Z := Z.max 0 (d - Z.abs (x - d * i)).
Definition total (f : Z -> Z) (l : list Z) : Z := fold_right (fun i s => f i + s) 0 l.
(* over the rows lo .. lo+n-1 and columns lo .. lo+n-1 *)
Definition bilinear (im : Z -> Z -> Z) (lo n d x y : Z) : Z := total (fun r => near d y r * total (fun c => near d x c * im r c) (zrange lo n)) (zrange lo n).
(* an image that goes on beyond its borders with the nearest pixel of it *)
Definition extended (rows cols : Z) (im : Z -> Z -> Z) (r c : Z) : Z := im (Z.max 0 (Z.min (rows - 1) r)) (Z.max 0 (Z.min (cols - 1) c)).
(* k is the integer nearest to n/e *)
Definition nearest (n e k : Z) : Prop := 2 * Z.abs (e * k - n) <= e.
