(* Sizes, tiles, the cursor and the album of windows: modules/utils/src/opencv.cpp lines 240-435 (DisplayHelper: display, displayAlbumAndWaitKey, onMouseEventCallback).
   Sizes are (width, height). The products with float are exact here; widths and heights are small enough not to overflow. Drawing is not modelled. *)
From Coq Require Import ZArith List Bool.
Import ListNotations.
Open Scope Z_scope.

Definition size := (Z * Z)%type.
(* lines 258-264 and 332-338 *)
Definition limit (most cur : size) : size :=
  let (mw, mh) := most in let (w, h) := cur in
  if (0 <? mw * mh) && ((mw <? w) || (mh <? h)) then
    if (mw <? w) && (h <? w) then (mw, mw * h / w) else (mh * w / h, mh)
  else cur.
(* lines 258-266: the tile of a grid with rows and columns, and the size of the window *)
Definition tile (most suggested : size) (rows cols : Z) : size := let (w, h) := limit most (fst suggested * cols, snd suggested * rows) in (w / cols, h / rows).
Definition window (t : size) (rows cols : Z) : size := (fst t * cols, snd t * rows).
(* lines 425-429: oInternalPosition for the last tile and window *)
Definition internal (t win : size) (x y : Z) : Z * Z :=
  if (0 <=? x) && (0 <=? y) && (x <? fst win) && (y <? snd win) && (0 <? fst t * snd t) then (Z.rem x (fst t), Z.rem y (snd t)) else (x, y).
(* line 291: whether the cursor is drawn, for an event at (x,y) in the same window *)
Definition drawn (t win : size) (x y : Z) : bool :=
  let (ix, iy) := internal t win x y in (0 <=? ix) && (0 <=? iy) && (ix <? fst t) && (iy <? snd t).
(* line 296: whether it is drawn in colour in a tile *)
Definition marked (t : size) (x y row col : Z) : bool := (Z.quot x (fst t) =? col) && (Z.quot y (snd t) =? row).

(* lines 380-395: the image shown of n after a key; esc ends *)
Inductive key := Next | Previous | Other.
Definition turn (n : Z) (i : Z) (k : key) : Z := match k with Next => (i + 1) mod n | Previous => if 0 <? i then i - 1 else n - 1 | Other => i end.
Definition album (n : Z) (ks : list key) : Z := fold_left (turn n) ks 0.
