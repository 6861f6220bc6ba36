(** What the evaluation of several streams should give: every stream on its own. *)
From Coq Require Import ZArith QArith List Bool String.
From Verif Require Import Model.Metrics Model.EvalArrays Spec.Metrics.
Import ListNotations.
Open Scope Z_scope.

(** an accumulator with values and names for [n] streams; one that has seen no packet has none *)
Definition shaped {A} (n : nat) (a : acc A) : Prop := List.length (vals a) = n /\ List.length (names a) = n.
(** the first name given *)
Definition first_named (l : list string) : string := match find (fun x => negb (x =? "")%string) l with Some x => x | None => EmptyString end.
(** a value after a sequence of images, each of which may be refused *)
Definition sequence {A X} (f : A -> X -> option A) (l : list X) (v : A) : option A :=
  fold_left (fun o x => match o with Some v => f v x | None => None end) l (Some v).

(** the tree of batches of one stream *)
Fixpoint stream (s : nat) (b : abatch counters) : batch :=
  match b with AWork n a => Work n (nth s (vals a) zero_counters) | AGroup bare l => Group bare (map (stream s) l) end.
Fixpoint aleaves {A} (b : abatch A) : list (Z * acc A) := match b with AWork n a => [(n, a)] | AGroup _ l => flat_map aleaves l end.
(** every work batch has [n] streams and no group is empty *)
Fixpoint full {A} (n : nat) (b : abatch A) : Prop :=
  match b with AWork _ a => shaped n a | AGroup _ l => l <> [] /\ (fix all l := match l with [] => True | x :: r => full n x /\ all r end) l end.
(** the parts that produced something have [n] streams; a group counted as one has them everywhere *)
Fixpoint evaluated {A} (n : nat) (b : abatch A) : Prop :=
  match b with
  | AWork _ a => shaped n a
  | AGroup true _ => full n b
  | AGroup false l => (fix all l := match l with [] => True | x :: r => (aoutputs x <> 0 -> evaluated n x) /\ all r end) l
  end.
Definition sfields : list (smetrics -> Q) := [dBad05; dBad1; dBad2; dBad4; dAverageError; dRMS].
