(* Connectivity of label images, independent of how they are computed. *)
From Coq Require Import ZArith List.
Import ListNotations.
Open Scope Z_scope.

Definition pixel := (Z * Z)%type.
Definition within (h w : Z) (p : pixel) : Prop := 0 <= fst p < h /\ 0 <= snd p < w.
(* sharing an edge *)
Definition touching (p q : pixel) : Prop := Z.abs (fst p - fst q) + Z.abs (snd p - snd q) = 1.

(* reachable from p to q by steps between touching pixels of S *)
Inductive linked (S : pixel -> Prop) (p : pixel) : pixel -> Prop :=
| linked_here : S p -> linked S p p
| linked_step q r : linked S p q -> touching q r -> S r -> linked S p r.

(* the pixels of one label *)
Definition region (h w : Z) (f : pixel -> Z) (k : Z) (p : pixel) : Prop := within h w p /\ f p = k.
(* q lies in the connected component of p *)
Definition component (h w : Z) (f : pixel -> Z) (p q : pixel) : Prop := linked (region h w f (f p)) p q.
(* a set has n elements *)
Definition has_size (S : pixel -> Prop) (n : Z) : Prop :=
  exists l, NoDup l /\ (forall q, In q l <-> S q) /\ Z.of_nat (length l) = n.
