(* Votes, and vectors of length one. *)
From Coq Require Import ZArith Reals List Bool.
From Verif Require Import Spec.GpuAffinity.
Import ListNotations.

(* how many votes are for bin i *)
Definition ballots (i : nat) (votes : list (option Z)) : nat := length (filter (fun v => match v with Some b => Z.eqb b (Z.of_nat i) | None => false end) votes).
Definition counted_votes (i : nat) (votes : option (list (option Z))) : nat := match votes with Some l => ballots i l | None => 0 end.
Definition norm2 (size : nat) (v : nat -> R) : R := big size (fun i => v i * v i)%R.
(* v scaled to length 1; not a number if it has no length *)
Definition direction (size : nat) (v : nat -> R) (i : nat) : option R := if Req_EM_T (norm2 size v) 0 then None else Some (v i / sqrt (norm2 size v))%R.
