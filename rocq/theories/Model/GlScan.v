(* Compute shaders that sum rows and transpose images: GLShader::getComputeShaderSource_ParallelPrefixSum, _ParallelPrefixSum_BlockMerge and _Transpose, modules/utils/src/opengl-shaders.cpp lines 578-677.
   Invocations of a work group run as in Model/Kernels.v. One channel; the numbers are not reduced modulo 2^32 (the shaders only add, so that results modulo 2^32 are these reduced). Images are read as zero outside, and not written there. *)
From Coq Require Import ZArith Reals List Bool Permutation.
From Verif Require Import Lib.Grid Model.Kernels.
Import ListNotations.
Open Scope Z_scope.

(* columns and rows *)
Record image := { cols : Z; rows : Z; texel : Z -> Z -> Z }.
Definition within (im : image) (x y : Z) : bool := (0 <=? x) && (x <? cols im) && (0 <=? y) && (y <? rows im).
Definition image_load (im : image) (x y : Z) : Z := if within im x y then texel im x y else 0.
Definition image_store (im : image) (x y v : Z) : image :=
  if within im x y then {| cols := cols im; rows := rows im; texel := fun x' y' => if (x' =? x) && (y' =? y) then v else texel im x' y' |} else im.

(* line 582 *)
Definition invocations (n : Z) : Z := (n + 1) / 2.
(* the shared array, and swapsum of each invocation *)
Definition tmp (i : Z) : addr := (0, i).
Definition swapsum (t : nat) : addr := (1, Z.of_nat t).
(* lines 599-600 *)
Definition load (row : Z -> Z) : program := fun t =>
  let x := Z.of_nat t in [Const (IZR (row (x * 2))); Store (tmp (x * 2)); Const (IZR (row (x * 2 + 1))); Store (tmp (x * 2 + 1))].
(* the loop of lines 601-610: depth and offset of each pass *)
Fixpoint up_steps (fuel : nat) (depth offset : Z) : list (Z * Z) :=
  match fuel with O => [] | S f => if 0 <? depth then (depth, offset) :: up_steps f (depth / 2) (offset * 2) else [] end.
Definition lower (offset : Z) (t : nat) : Z := offset * (Z.of_nat t * 2 + 1) - 1.
Definition upper (offset : Z) (t : nat) : Z := offset * (Z.of_nat t * 2 + 2) - 1.
(* lines 604-608 *)
Definition up (s : Z * Z) : program := fun t =>
  if Z.of_nat t <? fst s then [Load (tmp (upper (snd s) t)); Add (tmp (lower (snd s) t)); Store (tmp (upper (snd s) t))] else [].
(* lines 611-612 *)
Definition clear (n : Z) : program := fun t => if (t =? 0)%nat then [Const 0; Store (tmp (n - 1))] else [].
(* the loop of lines 613-623; here the lower of the two indices is called upper *)
Fixpoint down_steps (fuel : nat) (depth offset n : Z) : list (Z * Z) :=
  match fuel with O => [] | S f => if depth <? n then (depth, offset / 2) :: down_steps f (depth * 2) (offset / 2) n else [] end.
Definition down (s : Z * Z) : program := fun t =>
  if Z.of_nat t <? fst s then
    [Load (tmp (lower (snd s) t)); Store (swapsum t); Load (tmp (upper (snd s) t)); Store (tmp (lower (snd s) t)); Add (swapsum t); Store (tmp (upper (snd s) t))]
  else [].
(* what is between the barriers of lines 598-624; the loops end after as many passes as n has bits *)
Definition bits (n : Z) : nat := Z.to_nat (Z.log2 n + 2).
Definition scan (n : Z) (row : Z -> Z) : list program :=
  let ups := up_steps (bits n) (invocations n) 1 in
  load row :: map up (removelast ups) ++ [fun t => up (last ups (0, 0)) t ++ clear n t] ++ map down (down_steps (bits n) 1 (2 ^ Z.of_nat (length ups)) n).
(* the addresses of the shared array that are used *)
Definition in_bounds (n : Z) (ps : list program) : Prop :=
  forall p t i a, In p ps -> Z.of_nat t < invocations n -> In i (p t) -> mentions i a -> fst a = 0 -> 0 <= snd a < n.
(* all work groups: block and row. Each reads and writes its own part of the images *)
Definition prefix_sum (n groups : Z) (binary : bool) (im out : image) : Prop :=
  cols out = cols im /\ rows out = rows im /\
  forall b y, 0 <= b < groups -> 0 <= y < rows im -> exists m m',
    kernel (Z.to_nat (invocations n)) (scan n (fun i => let v := image_load im (b * n + i) y in if binary then v mod 2 else v)) m m' /\
    forall i, 0 <= i < invocations n * 2 -> b * n + i < cols im -> IZR (texel out (b * n + i) y) = m' (tmp i).

(* line 579: the number of work groups along x that the caller is told to use *)
Definition documented_groups (columns n : Z) : Z := ((columns + 1) / 2 + n - 1) / n.

(* lines 645-653, the invocation of row y *)
Definition merge_block (n y : Z) (im : image) (b : Z) : image :=
  let s := image_load im (b * n - 1) y in
  fold_left (fun im x => image_store im (b * n + x) y (image_load im (b * n + x) y + s)) (zrange 0 n) im.
Definition block_count (im : image) (n : Z) : Z := (cols im + n - 1) / n.
Definition merge_row (n : Z) (im : image) (y : Z) : image := fold_left (merge_block n y) (zrange 1 (block_count im n - 1)) im.
(* the rows in any order: they do not share anything *)
Definition block_merge (n : Z) (im out : image) : Prop := exists order, Permutation order (zrange 0 (rows im)) /\ out = fold_left (merge_row n) order im.

(* lines 671-675: an invocation reads only the shared element that it wrote itself. The work groups as in line 658 *)
Definition transpose (n : Z) (im before after : image) : Prop :=
  exists order, Permutation order (grid 0 ((rows im + n - 1) / n * n) 0 ((cols im + n - 1) / n * n)) /\
    after = fold_left (fun out q => image_store out (fst q) (snd q) (image_load im (snd q) (fst q))) order before.
