(** Lines of a text, bytes of a pixel. *)
From Coq Require Import ZArith List Ascii.
From Verif Require Import Model.GlBuffers.
Import ListNotations.

(** ls are the lines of s: no line has a line feed, and s is all of them with line feeds between *)
Inductive lines_of : list (list ascii) -> list ascii -> Prop :=
| last_line l : ~ In "010"%char l -> lines_of [l] l
| more_lines l ls s : ~ In "010"%char l -> lines_of ls s -> lines_of (l :: ls) (l ++ "010"%char :: s).
(** line i of the result is the label i followed by line i *)
Definition labelled (label : Z -> list ascii) (ls ks : list (list ascii)) : Prop :=
  length ks = length ls /\ forall i, (i < length ls)%nat -> nth i ks [] = label (Z.of_nat i + 1)%Z ++ nth i ls [].
(** the bytes of a pixel *)
Definition pixel (d : depth) (c : chans) : Z :=
  match d, c with U8, One => 1 | U8, Three => 3 | U8, Four => 4 | _, One => 4 | _, Three => 12 | _, Four => 16 end%Z.
