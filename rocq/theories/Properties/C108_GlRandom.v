(* C108: random numbers and random neighbours in shaders. *)
From Coq Require Import NArith ZArith List Lia.
From Verif Require Import Model.GlRandom Spec.GlRandom Proofs.GlRandom.
Import ListNotations.
Open Scope N_scope.

(* The generators that the library sets up never get into the state in which they stand still, whatever rand() was and however many numbers were drawn. *)
Theorem C108_alive r n : r < 2 ^ 32 -> ~ stuck (after litiv r n).
Proof. exact (never_stuck r n). Qed.
Print Assumptions C108_alive.
(* From this state all numbers are zero; no other state leads there. *)
Theorem C108_stuck g p n : sized g -> words p -> (stuck (N.iter n (next_state g) p) <-> stuck p) /\ (stuck p -> fst (tiny_urand g (N.iter n (next_state g) p)) = 0).
Proof. exact (fun G W => conj (stuck_only g G n p W) (stuck_draws g p n W)). Qed.
Print Assumptions C108_stuck.
(* Pixels with different values of rand() never have generators in the same state after the same number of draws. *)
Theorem C108_distinct g r r' n : sized g -> r < 2 ^ 32 -> r' < 2 ^ 32 -> same_bits (after g r n) (after g r' n) -> r = r'.
Proof. exact (fun G => distinct g G r r' n). Qed.
Print Assumptions C108_distinct.
(* A step can be undone: the 127 bits that count determine the next number and the next state, and are determined by it. *)
Theorem C108_reversible g p q : words p -> words q -> (same_bits p q <-> same_bits (next_state g p) (next_state g q)) /\ (same_bits p q -> fst (tiny_urand g p) = fst (tiny_urand g q)).
Proof. exact (fun W W' => conj (conj (next_same g p q) (next_inj g p q W W')) (drawn_same g p q)). Qed.
Print Assumptions C108_reversible.
(* So the numbers of each generator repeat from the first one on, and all of them are 32-bit words. *)
Theorem C108_periodic g r : sized g -> r < 2 ^ 32 -> (exists n, 0 < n /\ forall k, drawn g r (k + n) = drawn g r k) /\ forall k, drawn g r k < 2 ^ 32.
Proof. exact (fun G R => conj (periodic g G r R) (fun k => drawn_small g G r k R)). Qed.
Print Assumptions C108_periodic.
Example C108_ex_sized : sized litiv /\ words (after litiv 0 3).
Proof. split; [repeat split; reflexivity|apply after_words; [repeat split; reflexivity|reflexivity]]. Qed.
(* With the parameters of RFC 8682 and seed 1, the first numbers are those printed there. *)
Example C108_ex_rfc : map (drawn {| mat1 := 2406486510; mat2 := 4235788063; tmat := 932445695 |} 1) [0; 1; 2; 3; 4] = [2545341989; 981918433; 3715302833; 2387538352; 3591001365].
Proof. reflexivity. Qed.

(* One round of the hash is one to one on words. *)
Theorem C108_hash x y : x < 2 ^ 32 -> y < 2 ^ 32 -> urand x < 2 ^ 32 /\ (urand x = urand y <-> x = y).
Proof. exact (fun X Y => conj (urand_small x) (conj (urand_inj x y X Y) (fun E => f_equal urand E))). Qed.
Print Assumptions C108_hash.
(* So each seed comes back, and the numbers become zero only if the seed is: then all of them are. *)
Theorem C108_seed x n : x < 2 ^ 32 -> (exists m, 0 < m /\ N.iter m urand x = x) /\ (N.iter n urand x = 0 <-> x = 0).
Proof.
  intro X. split; [exact (urand_returns x X)|]. split; [exact (urand_iter_zero n x X)|]. intros ->. pattern n. apply N.peano_ind; [reflexivity|]. intros m IH. rewrite N.iter_succ, IH. reflexivity.
Qed.
Print Assumptions C108_seed.
Example C108_ex_hash : urand 1 = 307143837 /\ urand 2 = 614320443.
Proof. split; reflexivity. Qed.

(* The random neighbour is one of the eight around the pixel, each of them for one remainder of the random number. *)
Theorem C108_neighbour border width height p q : (exists r, r < 2 ^ 32 /\ rand_neighbour border width height p r = q) <-> around p q.
Proof. exact (neighbour_iff border width height p q). Qed.
Print Assumptions C108_neighbour.
Theorem C108_even border width height p r r' : rand_neighbour border width height p r = rand_neighbour border width height p r' <-> r mod 8 = r' mod 8.
Proof. exact (neighbour_mod border width height p r r'). Qed.
Print Assumptions C108_even.
(* It is meant to stay in the frame. For no size of frame and no border does it. *)
Theorem C108_frame_refuted border width height : (0 <= border)%Z -> (2 * border < width)%Z -> (2 * border < height)%Z ->
  exists p r, inside border width height p /\ r < 2 ^ 32 /\ ~ inside border width height (rand_neighbour border width height p r).
Proof. exact (leaves border width height). Qed.
Print Assumptions C108_frame_refuted.
Example C108_ex_frame : rand_neighbour 0 320 240 (0, 5)%Z 11 = (-1, 5)%Z.
Proof. reflexivity. Qed.
