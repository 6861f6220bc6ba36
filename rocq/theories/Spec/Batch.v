(** What has happened to a work batch, read off the calls and their results: specification for C52. *)
From Coq Require Import ZArith List Bool.
From Verif Require Import Model.Batch.
Import ListNotations.
Open Scope Z_scope.

(** is it being processed; has it ever been stopped *)
Fixpoint on (b : bool) (tr : list (act * res)) : bool := match tr with [] => b | (Start, Done) :: r => on true r | (Stop _, Done) :: r => on false r | _ :: r => on b r end.
(** the packets pushed since the last start or reset that did not throw; starting a started batch does nothing *)
Fixpoint pushed (b : bool) (l : list Z) (tr : list (act * res)) : list Z :=
  match tr with
  | [] => l
  | (Push i, Done) :: r => pushed b (l ++ [i]) r
  | (Start, Done) :: r => pushed true (if b then l else []) r
  | (Stop _, Done) :: r => pushed false l r
  | (Reset, Done) :: r => pushed b [] r
  | _ :: r => pushed b l r
  end.
(** how many starts and stops had an effect *)
Fixpoint starts (b : bool) (tr : list (act * res)) : nat :=
  match tr with [] => 0%nat | (Start, Done) :: r => ((if b then 0 else 1) + starts true r)%nat | (Stop _, Done) :: r => starts false r | _ :: r => starts b r end.
Fixpoint stopped (b : bool) (tr : list (act * res)) : bool :=
  match tr with [] => false | (Start, Done) :: r => stopped true r | (Stop _, Done) :: r => b || stopped false r | _ :: r => stopped b r end.
(** how many different ones *)
Definition different (l : list Z) : Z := Z.of_nat (length (nodup Z.eq_dec l)).
(** the time given to the stop that had an effect, unless a start was tried after it *)
Fixpoint timed (b : bool) (o : option Z) (tr : list (act * res)) : option Z :=
  match tr with
  | [] => o
  | (Start, Done) :: r => timed true (if b then o else None) r
  | (Start, _) :: r => timed b None r
  | (Stop t, Done) :: r => timed false (if b then Some t else o) r
  | _ :: r => timed b o r
  end.
Definition start_tried (tr : list (act * res)) : bool := existsb (fun p => match fst p with Start => true | _ => false end) tr.
