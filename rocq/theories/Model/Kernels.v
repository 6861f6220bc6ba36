(* Thread blocks on the graphics card (CUDA). The threads of a block run their instructions in any interleaving up to the next barrier (__syncthreads), where all have to arrive.
   Used for the kernels of modules/imgproc/cuda/affinity.cu and modules/features2d/cuda/SC.cu. Numbers are reals; global memory that is only read comes in as constants. *)
From Coq Require Import ZArith Reals List Bool.
Import ListNotations.

(* which array, and the index in it *)
Definition addr : Type := Z * Z.
Definition addr_eqb (a b : addr) : bool := (Z.eqb (fst a) (fst b) && Z.eqb (snd a) (snd b))%bool.
Definition memory : Type := addr -> R.
(* each reads or writes the memory at most once; the register belongs to the thread *)
Inductive instr := Const (v : R) | Load (a : addr) | Add (a : addr) | Mul (a : addr) | Root | Store (a : addr) | Atomic (a : addr) (v : R).
(* the addresses an instruction uses *)
Definition mentions (i : instr) (a : addr) : Prop := match i with Load b | Add b | Mul b | Store b | Atomic b _ => b = a | Const _ | Root => False end.
Definition set (m : memory) (a : addr) (v : R) : memory := fun b => if addr_eqb b a then v else m b.
Definition exec (i : instr) (m : memory) (r : R) : memory * R :=
  match i with
  | Const v => (m, v)
  | Load a => (m, m a)
  | Add a => (m, (r + m a)%R)
  | Mul a => (m, (r * m a)%R)
  | Root => (m, sqrt r)
  | Store a => (set m a r, r)
  | Atomic a v => (set m a (m a + v)%R, r)
  end.

(* the register of each thread and its instructions up to the barrier *)
Definition threads : Type := nat -> R * list instr.
Definition step (s : memory * threads) (t : nat) : memory * threads :=
  match snd (snd s t) with
  | [] => s
  | i :: p => let mr := exec i (fst s) (fst (snd s t)) in (fst mr, fun u => if Nat.eqb u t then (snd mr, p) else snd s u)
  end.
Definition program : Type := nat -> list instr.
Definition start (n : nat) (p : program) : threads := fun t => (0%R, if Nat.ltb t n then p t else []).
(* n threads run p to the barrier, in the order of sched *)
Definition reaches (n : nat) (p : program) (sched : list nat) (m m' : memory) : Prop :=
  let s := fold_left step sched (m, start n p) in fst s = m' /\ forall t, snd (snd s t) = [].
Definition phase (n : nat) (p : program) (m m' : memory) : Prop := exists sched, reaches n p sched m m'.
(* what is between the barriers, one after the other *)
Inductive kernel (n : nat) : list program -> memory -> memory -> Prop :=
| kernel_done : forall m, kernel n [] m m
| kernel_next : forall p ps m m1 m2, phase n p m m1 -> kernel n ps m1 m2 -> kernel n (p :: ps) m m2.
