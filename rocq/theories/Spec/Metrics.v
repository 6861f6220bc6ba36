(** What the counters and metrics mean. *)
From Coq Require Import ZArith QArith List Bool.
From Verif Require Import Lib.Grid.
Import ListNotations.
Open Scope Z_scope.

(** classes of a pixel, from the labels 255 (positive), 85 (out of scope), 170 (unknown), 50 (shadow) and a region of interest that excludes value 0 *)
Inductive class := TruePos | TrueNeg | FalsePos | FalseNeg | DontCare.
Definition classify (input gt : Z) (in_roi : bool) : class :=
  if (gt =? 85) || (gt =? 170) || negb in_roi then DontCare
  else match (input =? 255), (gt =? 255) with
       | true, true => TruePos | true, false => FalsePos | false, true => FalseNeg | false, false => TrueNeg end.
Definition class_eqb (a b : class) : bool :=
  match a, b with TruePos, TruePos | TrueNeg, TrueNeg | FalsePos, FalsePos | FalseNeg, FalseNeg | DontCare, DontCare => true | _, _ => false end.
Definition shadow_error (input gt : Z) (in_roi : bool) : bool := in_roi && (input =? 255) && (gt =? 50).

Definition qsum (l : list Q) : Q := fold_right Qplus 0%Q l.
(** [v] is the arithmetic mean of [l] *)
Definition is_mean (v : Q) (l : list Q) : Prop := l <> [] /\ (v * inject_Z (Z.of_nat (length l)) == qsum l)%Q.
