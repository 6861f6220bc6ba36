(* Addresses of matrix elements, as computed by cv::Mat::ptr from the step array. *)
From Coq Require Import ZArith List.
Import ListNotations.
Open Scope Z_scope.

(* the byte offset of an element *)
Fixpoint offset (steps idx : list Z) : Z :=
  match steps, idx with
  | s :: ss, i :: ii => i * s + offset ss ii
  | _, _ => 0
  end.

(* an index inside the matrix *)
Definition index_of (sizes idx : list Z) : Prop := Forall2 (fun s i => 0 <= i < s) sizes idx.

(* row-major order of indices *)
Inductive precedes : list Z -> list Z -> Prop :=
| precedes_here : forall i j a b, i < j -> precedes (i :: a) (j :: b)
| precedes_later : forall i a b, precedes a b -> precedes (i :: a) (i :: b).

(* the number of bytes needed in plain arithmetic: each dimension is rounded up to the alignment *)
Definition up (n v : Z) : Z := (v + n - 1) / n * n.
Fixpoint needed (n e : Z) (sizes : list Z) : Z :=
  match sizes with
  | [] => e
  | s :: ss => up n (s * needed n e ss)
  end.

(* alignments are powers of two *)
Definition power_of_two (n : Z) : Prop := exists k, 0 <= k < 31 /\ n = 2 ^ k.
