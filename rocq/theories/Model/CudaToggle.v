(* Algorithms that may run on a CUDA device: modules/utils/include/litiv/utils/algo.hpp lines 82-129 (IParallelAlgo_<CUDA>) with lv::cuda::init, modules/utils/src/cuda.cpp lines 48-76, without reset.
   The driver is the count of devices and which of them have the capabilities needed; its current device is one for the process (for the thread, of which there is one here). Its errors other than these are left out, and so is the text. *)
From Coq Require Import ZArith List Bool.
Import ListNotations.
Open Scope Z_scope.

Record driver := { devices : Z; capable : Z -> bool }.
(* m_bUseCUDA, m_bCUDAInitialized, m_nDeviceID, m_pDeviceInfo (the device it is of) *)
Record algo := { use : bool; ready : bool; device : Z; info : option Z }.
Record world := { current : Z; algos : list algo }.

(* cuda.cpp lines 63-68: whether it returns, and the current device after it; setDevice throws for negative numbers *)
Definition init (d : driver) (cur id : Z) : bool * Z :=
  if negb (0 <? devices d) then (false, cur) else
  if negb (id <? devices d) then (false, cur) else
  if id <? 0 then (false, cur) else
  if negb (capable d id) then (false, id) else (true, id).
(* lines 92-105: tryInitEnableCUDA; DeviceInfo() is that of the current device *)
Definition try_init (d : driver) (cur id : Z) : algo * Z :=
  let (ok, cur') := init d cur id in
  if ok then ({| use := true; ready := true; device := id; info := Some cur' |}, cur')
  else ({| use := false; ready := false; device := -1; info := None |}, cur').
(* lines 86-90 *)
Definition construct (d : driver) (cur : Z) (b : bool) (id : Z) : algo * Z :=
  if b then try_init d cur id else ({| use := b; ready := false; device := -1; info := None |}, cur).
(* lines 107-114; None is the exception *)
Definition enable (a : algo) (b : bool) : option algo :=
  if b && negb (use a) then if ready a then Some {| use := true; ready := ready a; device := device a; info := info a |} else None
  else if negb b && use a then Some {| use := false; ready := ready a; device := device a; info := info a |} else Some a.
(* lines 116 and 118 *)
Definition is_parallel (a : algo) : bool := use a.
Inductive kind := Cuda | NonParallel.
Definition algo_type (a : algo) : kind := if use a then Cuda else NonParallel.

(* calls of a program, on algorithms by their number; an exception leaves all as it was *)
Inductive call := New (b : bool) (id : Z) | Init (k : nat) (id : Z) | Enable (k : nat) (b : bool).
Fixpoint put (k : nat) (a : algo) (l : list algo) : list algo := match l, k with [], _ => [] | _ :: r, O => a :: r | b :: r, S k => b :: put k a r end.
Definition step (d : driver) (w : world) (c : call) : world :=
  match c with
  | New b id => let (a, cur) := construct d (current w) b id in {| current := cur; algos := algos w ++ [a] |}
  | Init k id => match nth_error (algos w) k with
                 | None => w
                 | Some _ => let (a, cur) := try_init d (current w) id in {| current := cur; algos := put k a (algos w) |}
                 end
  | Enable k b => match nth_error (algos w) k with
                  | None => w
                  | Some a => match enable a b with Some a => {| current := current w; algos := put k a (algos w) |} | None => w end
                  end
  end.
Definition run (d : driver) (cs : list call) : world := fold_left (step d) cs {| current := 0; algos := [] |}.
