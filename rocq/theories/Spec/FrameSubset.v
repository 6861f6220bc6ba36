(* Frame subsets, independently of how they are read. *)
From Coq Require Import ZArith List Sorted.
From Verif Require Import Model.FrameSubset.
Import ListNotations.
Open Scope Z_scope.

Definition increasing (s : list Z) : Prop := StronglySorted Z.lt s.
(* f is a frame no farther than w from a frame the file names *)
Definition near (total w : Z) (lines : list line) (f : Z) : Prop := 0 <= f < total /\ exists g, In (Index g) lines /\ g - w <= f <= g + w.
(* what a file must be like *)
Definition readable (total w : Z) (lines : list line) : Prop := ~ In Other lines /\ forall g, In (Index g) lines -> 0 <= g < total /\ g + w < 2 ^ 31 - 1.
