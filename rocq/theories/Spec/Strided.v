(* Elements by their indices. *)
From Coq Require Import ZArith List Bool.
From Verif Require Import Lib.Grid.
Import ListNotations.
Open Scope Z_scope.

(* all indices of a matrix, the last one fastest *)
Fixpoint indices (ss : list Z) : list (list Z) := match ss with [] => [[]] | s :: r => flat_map (fun i => map (cons i) (indices r)) (zrange 0 s) end.
(* where the element of an index is *)
Fixpoint place (ts idx : list Z) (o : Z) : Z := match idx, ts with i :: idx, t :: ts => place ts idx (o + i * t) | _, _ => o end.
(* all scalars in order *)
Definition contents (mem : Z -> Z) (ss ts : list Z) (c o : Z) : list Z := flat_map (fun idx => map (fun k => mem (place ts idx o + k)) (zrange 0 c)) (indices ss).
(* steps that keep elements of c scalars apart *)
Fixpoint apart (c : Z) (ss ts : list Z) : Prop :=
  match ss, ts with
  | [], [] => True
  | s :: r, t :: q => match r, q with s2 :: _, t2 :: _ => t2 * s2 <= t /\ apart c r q | [], [] => t = c | _, _ => False end
  | _, _ => False
  end.
(* index i of dimension d moved by a *)
Fixpoint moved (d : nat) (a : Z) (idx : list Z) : list Z := match idx, d with [], _ => [] | i :: r, O => i + a :: r | i :: r, S d => i :: moved d a r end.
