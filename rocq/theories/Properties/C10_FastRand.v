(** C10 - fastrand: full period, bijection, range; vector generator = four scalar LCGs. *)
From Coq Require Import ZArith List.
From Verif Require Import Model.FastRand Proofs.FastRand.
Open Scope Z_scope.

(** a seed comes back after [k] calls exactly when [k] is a multiple of 2^32 *)
Theorem C10_exact_period : forall k s, 0 <= s < 2 ^ 32 -> (lcg_iter k s = s <-> (2 ^ 32 | Z.of_nat k)).
Proof. exact lcg_period. Qed.
Print Assumptions C10_exact_period.

(** every 32-bit state is visited from every seed *)
Theorem C10_visits_every_state : forall s t, 0 <= s < 2 ^ 32 -> 0 <= t < 2 ^ 32 ->
  exists k, Z.of_nat k < 2 ^ 32 /\ lcg_iter k s = t.
Proof. exact lcg_reaches. Qed.
Print Assumptions C10_visits_every_state.

Theorem C10_seed_update_injective : forall s t, 0 <= s < 2 ^ 32 -> 0 <= t < 2 ^ 32 ->
  snd (fastrand s) = snd (fastrand t) -> s = t.
Proof. exact lcg_injective. Qed.
Print Assumptions C10_seed_update_injective.

(** the returned value is bits 16..30 of the new seed, hence in [0,32767] *)
Theorem C10_output_is_bits_16_to_30 : forall s, 0 <= s < 2 ^ 32 ->
  fst (fastrand s) = (snd (fastrand s) / 2 ^ 16) mod 2 ^ 15 /\ 0 <= fst (fastrand s) <= 32767.
Proof.
  intros s Hs. split; [apply lcg_out_bits; apply Z.mod_pos_bound; reflexivity|apply lcg_out_range].
Qed.
Print Assumptions C10_output_is_bits_16_to_30.

(** the vector generator advances four independent LCGs with the documented constants *)
Theorem C10_vec_is_lanewise : forall a b c d,
  snd (fastrand_vec false (a, b, c, d)) =
  ((214013 * a + 2531011) mod 2 ^ 32, (17405 * b + 10395331) mod 2 ^ 32,
   (214013 * c + 13737667) mod 2 ^ 32, (69069 * d + 1) mod 2 ^ 32).
Proof. intros. exact (vec_state (a, b, c, d)). Qed.
Print Assumptions C10_vec_is_lanewise.

(** with signed overflow undefined, the function is undefined for ordinary seeds *)
Theorem C10_defined_for_all_seeds_refuted : exists s, - 2 ^ 31 <= s < 2 ^ 31 /\ fastrand_checked s = None.
Proof. exists 10035. split; [split; [discriminate|reflexivity]|reflexivity]. Qed.
Print Assumptions C10_defined_for_all_seeds_refuted.

(** where it is defined, it agrees with the wrapping model *)
Theorem C10_checked_agrees : forall s r s', fastrand_checked s = Some (r, s') ->
  fastrand (s mod 2 ^ 32) = (r, s' mod 2 ^ 32).
Proof. exact checked_agrees. Qed.
Print Assumptions C10_checked_agrees.

Example C10_ex : fastrand 1 = (41, 2745024) /\ lcg_iter 3 1 <> 1.
Proof. vm_compute. split; [reflexivity|discriminate]. Qed.
Example C10_ex_checked : fastrand_checked 1 = Some (41, 2745024).
Proof. reflexivity. Qed.
