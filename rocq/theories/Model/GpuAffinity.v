(* Affinity maps of descriptor maps on the graphics card: the kernels of modules/imgproc/cuda/affinity.cu lines 24-193, and how lv::computeDescriptorAffinity launches them, modules/imgproc/src/imgproc.cpp lines 417-462 and 553-606.
   Warps have 32 threads. Arrays: 0 shared floats (aDescCalcLUT, afAffinities), 1 shared counts (anCounts), 2 the row of the output map for the pixel (aAffArray), 3 and 4 local variables by thread.
   The table of descriptor pointers (aDistCalcLUTs) is written before a barrier and then only read, and comes in as what it says. Numbers are reals. *)
From Coq Require Import ZArith Reals List Bool.
From Verif Require Import Model.Kernels Model.Affinity.
Import ListNotations.

Definition sh (i : nat) : addr := (0, Z.of_nat i)%Z.
Definition cn (i : nat) : addr := (1, Z.of_nat i)%Z.
Definition out (k : nat) : addr := (2, Z.of_nat k)%Z.
Definition local1 (t : nat) : addr := (3, Z.of_nat t)%Z.
Definition local2 (t : nat) : addr := (4, Z.of_nat t)%Z.

(* __float2int_ru(float(a)/b), std::ceil(float(a)/b) *)
Definition div_up (a b : nat) : nat := (a + b - 1) / b.
(* for(int nStep=nThreads/2; nStep>0; nStep>>=1); fuel: nThreads *)
Fixpoint halves (fuel n : nat) : list nat :=
  match fuel with
  | O => []
  | S f => let s := n / 2 in if s =? 0 then [] else s :: halves f s
  end%nat.

(* affinity.cu lines 34-43; diff: the squared differences of the descriptors *)
Definition fill (n size : nat) (diff : nat -> R) : program := fun t =>
  flat_map (fun j => [Const (if (n * j + t <? size)%nat then diff (n * j + t)%nat else 0%R); Store (sh (n * j + t))]) (seq 0 (div_up size n)).
(* lines 49-50 *)
Definition gather (n size : nat) : program := fun t => flat_map (fun j => [Load (sh t); Add (sh (t + n * j)); Store (sh t)]) (seq 1 (div_up size n - 1)).
(* lines 52-58, one round: all threads add *)
Definition wide_round (s : nat) : list program := [fun t => [Load (sh (t + s)); Store (local1 t)]; fun t => [Load (sh t); Add (local1 t); Store (sh t)]].
(* lines 62-66, one round *)
Definition half_round (s : nat) : list program := [fun t => if (t <? s)%nat then [Load (sh t); Add (sh (t + s)); Store (sh t)] else []].
(* lines 46-67 *)
Definition reduce (n size : nat) : list program :=
  if (n <? div_up size n * n)%nat then gather n size :: flat_map wide_round (halves n n) else flat_map half_round (halves n n).
(* lines 68-69: there is no barrier between this and the next offset *)
Definition emit (k : option nat) : program := fun t => match k with Some k => if (t =? 0)%nat then [Load (sh 0); Root; Store (out k)] else [] | None => [] end.
(* l2dist_lu_exec, lines 24-72; None: no descriptor in the table *)
Fixpoint distances (n size : nat) (diff : nat -> option (nat -> R)) (ks : list nat) (pending : option nat) : list program :=
  match ks with
  | [] => [emit pending]
  | k :: r => match diff k with
              | None => distances n size diff r pending
              | Some d => (fun t => emit pending t ++ fill n size d t) :: reduce n size ++ distances n size diff r (Some k)
              end
  end.
(* lines 90-104 and 139-153: -1 where there is nothing to compare *)
Definition defaults (n m : nat) (missing : nat -> bool) : program := fun t =>
  flat_map (fun j => if ((n * j + t <? m)%nat && missing (n * j + t)%nat)%bool then [Const (-1); Store (out (n * j + t))] else []) (seq 0 (div_up m n)).
(* (a[i]-b[i])^2 *)
Definition squared (a b : list R) (i : nat) : R := ((nth i a 0 - nth i b 0) * (nth i a 0 - nth i b 0))%R.
Section Launch.
Context (rows cols : Z) (offs : list Z) (size : nat) (roi1 roi2 : roi) (d1 d2 : Z * Z -> list R).
Definition compared (r c : Z) (k : nat) : option (nat -> R) :=
  let o := (c + nth k offs 0)%Z in
  if ((0 <=? o) && (o <? cols))%Z && negb (off roi2 r o) then Some (squared (d1 (r, c)) (d2 (r, o))) else None.
(* compute_desc_affinity_l2 and compute_desc_affinity_l2_roi, lines 74-158, for one pixel. The second one is launched with both regions *)
Definition pixel_kernel (n : nat) (r c : Z) : list program :=
  if off roi1 r c then [defaults n (length offs) (fun _ => true)]
  else defaults n (length offs) (fun k => match compared r c k with None => true | Some _ => false end) :: distances n size (compared r c) (seq 0 (length offs)) None.
(* shared memory is not initialized *)
Definition raw_gpu (n : nat) (raw : affmap) : Prop := forall r c, (0 <= r < rows -> 0 <= c < cols -> exists m m', kernel n (pixel_kernel n r c) m m' /\ forall k, (k < length offs)%nat -> raw (r, c, k) = m' (out k))%Z.

(* compute_desc_affinity_patch, lines 160-193 *)
Definition member (p : nat) (r c : Z) (t : nat) : option (Z * Z) :=
  let y := (r + Z.of_nat (t / p) - Z.of_nat p / 2)%Z in
  let x := (c + Z.of_nat (t mod p) - Z.of_nat p / 2)%Z in
  if (t / p <? p)%nat && ((0 <=? y) && (y <? rows) && (0 <=? x) && (x <? cols))%Z then Some (y, x) else None.
Definition counted (p : nat) (raw : affmap) (r c : Z) (k t : nat) : option R :=
  match member p r c t with Some q => if Req_EM_T (raw (fst q, snd q, k)) (-1) then None else Some (raw (fst q, snd q, k)) | None => None end.
Definition patch_first (p : nat) (raw : affmap) (r c : Z) (k : nat) : program := fun t =>
  match counted p raw r c k t with Some v => [Const 1; Store (cn t); Const v; Store (sh t)] | None => [Const 0; Store (cn t); Const 0; Store (sh t)] end.
Definition patch_round (n s : nat) : list program :=
  [fun t => if (t + s <? n)%nat then [Load (cn (t + s)); Store (local1 t); Load (sh (t + s)); Store (local2 t)] else [Const 0; Store (local1 t); Const 0; Store (local2 t)];
   fun t => [Load (cn t); Add (local1 t); Store (cn t); Load (sh t); Add (local2 t); Store (sh t)]].
Definition patch_kernel (n p : nat) (raw : affmap) (r c : Z) (k : nat) : list program := patch_first p raw r c k :: flat_map (patch_round n) (halves n n).
(* line 192: the first thread reads what it wrote itself *)
Definition patch_result (m : memory) : R := if Req_EM_T (m (cn 0)) 0 then (-1)%R else (m (sh 0) / m (cn 0))%R.
Definition patch_gpu (n p : nat) (raw res : affmap) : Prop := forall r c k, (0 <= r < rows -> 0 <= c < cols -> (k < length offs)%nat ->
  exists m m', kernel n (patch_kernel n p raw r c k) m m' /\ res (r, c, k) = patch_result m')%Z.

(* imgproc.cpp lines 581-582 and 597-599: threads in a block *)
Definition l2_threads (m : nat) : nat := if (64 <? m)%nat then div_up m 64 * 64 else 64.
Definition patch_threads (p : nat) : nat := div_up (p * p) 32 * 32.
(* lines 553-606, where it does not throw: at most UCHAR_MAX-1 offsets (line 566), and at most 1024 threads in a block *)
Definition gpu_affinity (p : nat) (res : affmap) : Prop :=
  (length offs <= 254)%nat /\
  if (p =? 1)%nat then raw_gpu (l2_threads (length offs)) res
  else (patch_threads p <= 1024)%nat /\ exists raw, raw_gpu (l2_threads (length offs)) raw /\ patch_gpu (patch_threads p) p raw res.
End Launch.

(* line 561, by what is empty *)
Definition rois_accepted (empty1 empty2 : bool) : bool := (empty1 && empty2) || (negb empty1 && negb empty1).
(* line 440: the maps go to the graphics card (L2 distances, CUDA allowed) *)
Definition dispatched (rows cols : Z) (offsets size : nat) (empty1 empty2 : bool) : bool := Bool.eqb empty1 empty2 && ((64 <? rows * cols)%Z || (16 <? offsets)%nat || (32 <? size)%nat).

(* lines 573-579: g_anDispRange, and s_vDispRange_dev of each host thread; all start as zero *)
Record ranges := { device : nat -> Z; cached : nat -> nat -> Z }.
Definition fresh : ranges := {| device := fun _ => 0%Z; cached := fun _ _ => 0%Z |}.
Definition call (s : ranges) (c : nat * list Z) : ranges :=
  let (thread, offs) := c in
  if forallb (fun k => Z.eqb (nth k offs 0%Z) (cached s thread k)) (seq 0 (length offs)) then s
  else let new := fun k => if (k <? length offs)%nat then nth k offs 0%Z else cached s thread k in
       {| device := new; cached := fun t => if (t =? thread)%nat then new else cached s t |}.
(* the offsets that the kernel of the last call works with *)
Definition used (cs : list (nat * list Z)) (c : nat * list Z) : list Z := map (device (call (fold_left call cs fresh) c)) (seq 0 (length (snd c))).
