(* The 127 bits of a tiny Mersenne twister that matter. *)
From Coq Require Import NArith ZArith.
From Verif Require Import Model.GlRandom.
Open Scope N_scope.

(* 32-bit words, of the first only the lower 31 bits *)
Definition words (p : status) : Prop := s0 p < 4294967296 /\ s1 p < 4294967296 /\ s2 p < 4294967296 /\ s3 p < 4294967296.
Definition same_bits (p q : status) : Prop := s0 p mod 2147483648 = s0 q mod 2147483648 /\ s1 p = s1 q /\ s2 p = s2 q /\ s3 p = s3 q.
(* the state that never changes *)
Definition stuck (p : status) : Prop := s0 p mod 2147483648 = 0 /\ s1 p = 0 /\ s2 p = 0 /\ s3 p = 0.
Definition sized (g : params) : Prop := mat1 g < 4294967296 /\ mat2 g < 4294967296 /\ tmat g < 4294967296.

(* the pixels of a frame without its border *)
Definition inside (border width height : Z) (p : Z * Z) : Prop := (border <= fst p < width - border /\ border <= snd p < height - border)%Z.
Definition around (p q : Z * Z) : Prop := q <> p /\ (Z.abs (fst q - fst p) <= 1 /\ Z.abs (snd q - snd p) <= 1)%Z.
