(* Shape context descriptors on the graphics card: the kernel of modules/features2d/cuda/SC.cu lines 28-161, how it is launched (modules/features2d/src/SC.cpp lines 155-198 and 518-549), and scdesc_norm (lines 607-626).
   The rest of the extractor is in Model/ShapeContext.v. Warps have 32 threads. Arrays: 0 shared floats (aTmpDesc, then aTmpLUT), 2 the variable fSum of each thread, 3 and above what each thread exchanges by shuffles.
   Numbers are reals, None is NaN or infinite. A shuffle is a step in which every thread of the warp reads the old registers and sets its new one. *)
From Coq Require Import ZArith QArith Reals List Bool.
From Verif Require Import Model.ShapeContext Model.KeyPoints Model.Kernels Model.GpuAffinity.
Import ListNotations.

Definition fsum (t : nat) : addr := (2, Z.of_nat t)%Z.
Definition lane (k t : nat) : addr := (3 + Z.of_nat k, Z.of_nat t)%Z.

(* lines 72-86; bins: what the look-up table says for each contour point, None outside of it. GPU code leaves out all negative bins *)
Definition ballot (n : nat) (bins : list (option Z)) : program := fun t =>
  flat_map (fun j => match nth (n * j + t) bins None with Some b => if (0 <=? b)%Z then [Atomic (sh (Z.to_nat b)) 1] else [] | None => [] end) (seq 0 (div_up (length bins) n)).
(* lines 60-88: the initial values, and the votes unless the keypoint is far from the shape; fill is the same loop as in affinity.cu *)
Definition histogram (n size : nat) (init : R) (votes : option (list (option Z))) : list program :=
  fill n size (fun _ => init) :: match votes with Some bins => [ballot n bins] | None => [] end.

(* nLUTSize, lines 38-41 *)
Definition lut_size (n size : nat) : nat := div_up size n * n.
(* lines 91-109, with both versions of the shuffles: the value of thread t+h, or its own past the end of the warp *)
Definition shuffle (k h : nat) : program := fun t => [Load (lane k t); Add (lane k (if (t + h <? 32)%nat then t + h else t)); Store (lane (S k) t)].
Definition by_shuffles : list program :=
  [fun t => [Load (sh t); Mul (sh t); Store (lane 0 t)]; shuffle 0 16; shuffle 1 8; shuffle 2 4; shuffle 3 2; shuffle 4 1; fun t => [Load (lane 5 0); Store (fsum t)]].
(* lines 111-115 *)
Definition squares (n size : nat) : program := fun t =>
  flat_map (fun j => [Load (sh (n * j + t)); Mul (sh (n * j + t)); Store (sh (lut_size n size + (n * j + t)))]) (seq 0 (div_up size n)).
(* aTmpLUT[i] += aTmpLUT[j] *)
Definition accumulate (n size i j : nat) : list instr := [Load (sh (lut_size n size + i)); Add (sh (lut_size n size + j)); Store (sh (lut_size n size + i))].
(* lines 129-132 for nLUTSize > blockDim.x; lines 118-125 are this for 32 threads, unrolled. No barrier *)
Definition columns (n size : nat) : program := fun t => flat_map (fun j => accumulate n size (t + n * (j - 1)) (t + n * j)) (rev (seq 1 (div_up size n - 1))).
Definition across (n size : nat) : program := fun t => flat_map (fun h => accumulate n size t (t + h)) (halves n n).
(* line 145 *)
Definition total (n size : nat) : program := fun t => [Load (sh (lut_size n size)); Store (fsum t)].
Definition together (n size : nat) : program := fun t => squares n size t ++ columns n size t ++ across n size t ++ total n size t.
(* lines 136-140 for nLUTSize == blockDim.x: the first barrier comes after the first step *)
Definition halving (n size h : nat) : program := fun t => if (t <? h)%nat then accumulate n size t (t + h) else [].
Definition in_steps (n size : nat) : list program :=
  match halves n n with
  | [] => [squares n size]
  | h :: r => (fun t => squares n size t ++ halving n size h t) :: map (halving n size) r
  end ++ [total n size].
(* lines 89-145 *)
Definition normalization (n size : nat) : list program :=
  if (lut_size n size =? 32)%nat && (n =? 32)%nat then by_shuffles
  else if (n <? lut_size n size)%nat then [together n size] else in_steps n size.
(* lines 146-159: rsqrt(0) is infinite, and zero times that is NaN (all bins are zero then) *)
Definition output (n : nat) (norm : bool) (m : memory) (i : nat) : option R :=
  if norm then if Rle_dec (m (fsum (i mod n))) 0 then None else Some (m (sh i) / sqrt (m (fsum (i mod n))))%R else Some (m (sh i)).
(* one block; shared memory is not initialized *)
Definition gpu_desc (n size : nat) (init : R) (votes : option (list (option Z))) (norm : bool) (res : nat -> option R) : Prop :=
  exists m m', kernel n (histogram n size init votes ++ if norm then normalization n size else []) m m' /\ forall i, (i < size)%nat -> res i = output n norm m' i.
(* the same when the threads of the only warp run in lockstep after the votes: each instruction is done by all of them before the next one *)
Definition rounds (n k : nat) : list nat := concat (repeat (seq 0 n) k).
Definition lockstep_desc (size : nat) (init : R) (votes : option (list (option Z))) (res : nat -> option R) : Prop :=
  exists m m1 m', kernel 32 (histogram 32 size init votes) m m1 /\ reaches 32 (together 32 size) (rounds 32 (length (together 32 size 0%nat))) m1 m' /\ forall i, (i < size)%nat -> res i = output 32 true m' i.

(* line 59 and SC.cpp line 553 *)
Definition first_value (size : nat) (nonzero : bool) : R := if nonzero then Rmax (10 / INR size) (1 / 2) else 0%R.
(* what the kernel looks at for a keypoint on a pixel: lines 68-80 *)
Definition kernel_votes (cf : config) (s : shape) (key : Z * Z) : option (list (option Z)) := if near cf s key then Some (map (bin cf key) (contour s)) else None.
(* a descriptor map, SC.cpp lines 155-187 and 540-549: one block for each pixel, whatever the keypoints are *)
Definition gpu_map (cf : config) (s : shape) (n size : nat) (nonzero norm : bool) (res : Z * Z -> nat -> option R) : Prop :=
  forall y x, (0 <= y < rows s -> 0 <= x < cols s -> gpu_desc n size (first_value size nonzero) (kernel_votes cf s (y, x)) norm (res (y, x)))%Z.

(* SC.cpp lines 607-626 *)
Definition length_of (size : nat) (v : nat -> R) : R := sqrt (fold_right (fun i a => v i * v i + a)%R 0%R (seq 0 size)).
Definition cpu_norm (size : nat) (v : nat -> R) (i : nat) : R :=
  if Rlt_dec (1 / 100000) (length_of size v) then (v i / length_of size v)%R else sqrt (1 / INR size).
(* SC.cpp lines 553-605: the bins of Model/ShapeContext.v are what is added to the initial value *)
Definition cpu_desc (size : nat) (nonzero norm : bool) (d : bins) (i : nat) : R :=
  let v := fun j => (first_value size nonzero + IZR (d (Z.of_nat j)))%R in if norm then cpu_norm size v i else v i.

(* shared memory, in floats: SC.cpp lines 184 and 541 *)
Definition shared_given (size : nat) : nat := div_up size 32 * 32 * 2.

(* keypoints between pixels: SC.cu lines 55 and 76-77 (__float2int_rn), SC.cpp lines 559-560 and 568-569 (std::round) *)
Definition lookup_between (cf : config) (round : Q -> Z) (key : keypoint) (pt : Z * Z) : option Z :=
  let row := (round (inject_Z (fst pt) - ky key)%Q + outer cf)%Z in
  let col := (round (inject_Z (snd pt) - kx key)%Q + outer cf)%Z in
  let n := (2 * outer cf + 1)%Z in
  if ((row <? 0) || (n <=? row) || (col <? 0) || (n <=? col))%Z then None
  else let b := lut cf (row - outer cf)%Z (col - outer cf)%Z in if (b =? -1)%Z then None else Some b.
