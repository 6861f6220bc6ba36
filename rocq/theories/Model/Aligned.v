(* The matrix allocator with aligned rows: lv::AlignedMatAllocator (modules/utils/include/litiv/utils/opencv.hpp:1459-1498) and the
   block allocator under it, lv::AlignedMemAllocator (modules/utils/include/litiv/utils/cxx.hpp:621-684). *)
From Coq Require Import ZArith List Bool.
Import ListNotations.
Open Scope Z_scope.

(* size_t arithmetic *)
Definition u64 (v : Z) : Z := v mod 18446744073709551616.

(* cv::alignSize(size_t sz, int n) of OpenCV, called in opencv.hpp:1470-1474: (sz+n-1) & -n, with -n converted to size_t. *)
Definition alignSize (sz n : Z) : Z := Z.land (u64 (sz + n - 1)) (u64 (- n)).

(* the step array filled by allocate, outermost dimension first; opencv.hpp:1470-1472. [single] is bAlignSingleElem, [n] is nByteAlign
   and [e] is CV_ELEM_SIZE(type). The loop runs from the last dimension to the first one. *)
Fixpoint steps (single : bool) (n e : Z) (sizes : list Z) : list Z :=
  match sizes with
  | [] => []
  | [_] => [if single then alignSize e n else e]
  | _ :: ((s1 :: _) as rest) =>
      let r := steps single n e rest in
      alignSize (u64 (hd 0 r * s1)) n :: r
  end.

(* u->size; opencv.hpp:1474 *)
Definition total (single : bool) (n e : Z) (sizes : list Z) : Z :=
  alignSize (u64 (hd 0 (steps single n e sizes) * hd 0 sizes)) n.

(* the number of bytes requested from aligned_alloc / posix_memalign; cxx.hpp:664-668, sizeof(value_type)=1 for uint8_t *)
Definition alloc_size (n count : Z) : Z :=
  if count mod n =? 0 then count else u64 (count + (n - count mod n)).

(* the block allocated for the matrix when no data is given; opencv.hpp:1480 *)
Definition block (single : bool) (n e : Z) (sizes : list Z) : Z := alloc_size n (total single n e sizes).

(* when data is given, the block is the user's own, taken with the steps above whatever its size; opencv.hpp:1475-1478 *)
Definition block_with_data (user : Z) (single : bool) (n e : Z) (sizes : list Z) : Z := user.
