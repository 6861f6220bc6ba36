From Coq Require Import ZArith List Bool Lia Znumtheory Zpow_facts.
From Coq Require Import ZifyBool.
From Verif Require Import Model.FastRand.
Import ListNotations.
Open Scope Z_scope.

(** geometric sum 1 + a + ... + a^(k-1) *)
Fixpoint gsum (a : Z) (k : nat) : Z := match k with O => 0 | S k' => gsum a k' + a ^ Z.of_nat k' end.

Definition A := 214013.
Definition C := 2531011.

(** iteration without reduction *)
Fixpoint raw (k : nat) (s : Z) : Z := match k with O => s | S k' => A * raw k' s + C end.

Lemma gsum_succ_r : forall a k, gsum a (S k) = a * gsum a k + 1.
Proof.
  intros a. induction k as [|k IH]; [simpl; ring|].
  change (gsum a (S (S k))) with (gsum a (S k) + a ^ Z.of_nat (S k)).
  rewrite IH at 1. change (gsum a (S k)) with (gsum a k + a ^ Z.of_nat k).
  rewrite Nat2Z.inj_succ, Z.pow_succ_r by lia. ring.
Qed.

Lemma raw_closed : forall k s, raw k s - s = gsum A k * ((A - 1) * s + C).
Proof.
  induction k as [|k IH]; intros s; [simpl; ring|].
  change (raw (S k) s) with (A * raw k s + C). rewrite gsum_succ_r.
  replace (raw k s) with (s + gsum A k * ((A - 1) * s + C)) by (specialize (IH s); lia). ring.
Qed.

Lemma gsum_add : forall a j k, gsum a (j + k) = gsum a j + a ^ Z.of_nat j * gsum a k.
Proof.
  intros a j. induction k as [|k IH].
  - rewrite Nat.add_0_r. simpl. ring.
  - rewrite Nat.add_succ_r. cbn [gsum]. rewrite IH. rewrite Nat2Z.inj_add, Z.pow_add_r by lia. ring.
Qed.

Lemma pow_A_mod4 : forall k, exists q, A ^ Z.of_nat k = 4 * q + 1.
Proof.
  induction k as [|k [q IH]]; [exists 0; reflexivity|].
  rewrite Nat2Z.inj_succ, Z.pow_succ_r by lia. rewrite IH. exists (A * q + 53503). unfold A. ring.
Qed.

Lemma gsum_parity : forall k, exists q, gsum A k = 2 * q + Z.of_nat k.
Proof.
  induction k as [|k [q IH]]; [exists 0; reflexivity|].
  cbn [gsum]. destruct (pow_A_mod4 k) as [p Hp]. exists (q + 2 * p). rewrite IH, Hp. lia.
Qed.

Lemma gsum_double : forall k, exists q, gsum A (k + k) = 2 * gsum A k * (2 * q + 1).
Proof.
  intros k. rewrite gsum_add. destruct (pow_A_mod4 k) as [p Hp]. exists p. rewrite Hp. ring.
Qed.

Lemma odd_cancel : forall m x q, 0 <= m -> (2 ^ m | x * (2 * q + 1)) -> (2 ^ m | x).
Proof.
  intros m x q Hm H. rewrite Z.mul_comm in H. apply Gauss with (b := 2 * q + 1); [exact H|].
  apply rel_prime_sym. assert (Hr : rel_prime (2 * q + 1) 2).
  { apply bezout_rel_prime. apply Bezout_intro with 1 (- q). ring. }
  apply rel_prime_Zpower_r; assumption.
Qed.

(** 2^m divides the geometric sum of length k exactly when it divides k *)
Lemma gsum_div : forall m k, (2 ^ Z.of_nat m | gsum A k) <-> (2 ^ Z.of_nat m | Z.of_nat k).
Proof.
  induction m as [|m IH]; intros k.
  - simpl. split; intros _; apply Z.divide_1_l.
  - rewrite Nat2Z.inj_succ, Z.pow_succ_r by lia.
    destruct (Nat.Even_or_Odd k) as [[j ->]|[j ->]].
    + replace (2 * j)%nat with (j + j)%nat by lia. destruct (gsum_double j) as [q Hq]. rewrite Hq.
      split; intros [z Hz].
      * assert (Hd : (2 ^ Z.of_nat m | gsum A j * (2 * q + 1))) by (exists z; nia).
        apply odd_cancel in Hd; [|lia]. apply IH in Hd. destruct Hd as [y Hy]. exists y. lia.
      * assert (Hd : (2 ^ Z.of_nat m | Z.of_nat j)) by (exists z; nia).
        apply IH in Hd. destruct Hd as [y Hy]. exists (y * (2 * q + 1)). rewrite Hy. ring.
    + destruct (gsum_parity (2 * j + 1)) as [q Hq]. rewrite Hq.
      split; intros [z Hz]; exfalso; nia.
Qed.

Lemma gsum_pow2 : forall m, exists q, gsum A (2 ^ m) = 2 ^ Z.of_nat m * (2 * q + 1).
Proof.
  induction m as [|m [q IH]].
  - exists 0. reflexivity.
  - replace (2 ^ S m)%nat with (2 ^ m + 2 ^ m)%nat by (simpl; lia). destruct (gsum_double (2 ^ m)) as [p Hp].
    rewrite Hp, IH, Nat2Z.inj_succ, Z.pow_succ_r by lia. exists (2 * p * q + p + q). ring.
Qed.

Lemma step_factor_odd : forall s, exists q, (A - 1) * s + C = 2 * q + 1.
Proof. intros s. exists (107006 * s + 1265505). unfold A, C. ring. Qed.

Lemma raw_period : forall m k s, (2 ^ Z.of_nat m | raw k s - s) <-> (2 ^ Z.of_nat m | Z.of_nat k).
Proof.
  intros m k s. rewrite raw_closed, <- gsum_div. destruct (step_factor_odd s) as [q ->]. split.
  - intros H. apply odd_cancel in H; [exact H|lia].
  - intros H. apply Z.divide_mul_l. exact H.
Qed.

Lemma raw_add : forall j k s, raw (j + k) s = raw j (raw k s).
Proof. induction j as [|j IH]; intros k s; [reflexivity|]. cbn [Nat.add raw]. rewrite IH. reflexivity. Qed.

Lemma raw_reaches : forall m s t, exists k, Z.of_nat k < 2 ^ Z.of_nat m /\ (2 ^ Z.of_nat m | raw k s - t).
Proof.
  induction m as [|m IH]; intros s t.
  - exists O. split; [reflexivity|]. apply Z.divide_1_l.
  - destruct (IH s t) as (k & Hk & [z Hz]).
    rewrite Nat2Z.inj_succ, Z.pow_succ_r by lia.
    destruct (Z.Even_or_Odd z) as [[y Hy]|[y Hy]].
    + exists k. split; [lia|]. exists y. rewrite Hz, Hy. ring.
    + exists (2 ^ m + k)%nat. split.
      { rewrite Nat2Z.inj_add, Nat2Z.inj_pow. change (Z.of_nat 2) with 2. lia. }
      rewrite raw_add. pose proof (raw_closed (2 ^ m) (raw k s)) as Hc.
      destruct (gsum_pow2 m) as [q Hq]. destruct (step_factor_odd (raw k s)) as [p Hp].
      rewrite Hq, Hp in Hc. exists (2 * q * p + q + p + y + 1).
      replace (raw (2 ^ m) (raw k s) - t) with ((raw (2 ^ m) (raw k s) - raw k s) + (raw k s - t)) by ring.
      rewrite Hc, Hz, Hy. ring.
Qed.

Lemma lcg_iter_raw : forall k s, 0 <= s < 2 ^ 32 -> lcg_iter k s = raw k s mod 2 ^ 32.
Proof.
  induction k as [|k IH]; intros s Hs.
  - simpl lcg_iter. simpl raw. rewrite Z.mod_small by exact Hs. reflexivity.
  - cbn [lcg_iter raw]. rewrite IH by exact Hs. unfold lcg. fold A. fold C.
    rewrite <- Zplus_mod_idemp_l, Zmult_mod_idemp_r, Zplus_mod_idemp_l. reflexivity.
Qed.

Lemma mod_eq_divide : forall m x y, 0 < m -> (x mod m = y mod m <-> (m | x - y)).
Proof.
  intros m x y Hm. split.
  - intros H. apply Z.mod_divide; [lia|]. rewrite Zminus_mod, H, Z.sub_diag. reflexivity.
  - intros [z Hz]. replace x with (y + z * m) by lia. apply Z_mod_plus_full.
Qed.

Lemma pow32 : 2 ^ Z.of_nat 32 = 2 ^ 32. Proof. reflexivity. Qed.

Lemma lcg_period : forall k s, 0 <= s < 2 ^ 32 -> (lcg_iter k s = s <-> (2 ^ 32 | Z.of_nat k)).
Proof.
  intros k s Hs. rewrite lcg_iter_raw by exact Hs. rewrite <- pow32, <- (raw_period 32 k s), pow32.
  rewrite <- mod_eq_divide by lia. rewrite (Z.mod_small s) by exact Hs. reflexivity.
Qed.

Lemma lcg_reaches : forall s t, 0 <= s < 2 ^ 32 -> 0 <= t < 2 ^ 32 ->
  exists k, Z.of_nat k < 2 ^ 32 /\ lcg_iter k s = t.
Proof.
  intros s t Hs Ht. destruct (raw_reaches 32 s t) as (k & Hk & Hd). rewrite pow32 in *.
  exists k. split; [exact Hk|]. rewrite lcg_iter_raw by exact Hs.
  apply mod_eq_divide in Hd; [|lia]. rewrite Hd. apply Z.mod_small. exact Ht.
Qed.

Lemma lcg_injective : forall s t, 0 <= s < 2 ^ 32 -> 0 <= t < 2 ^ 32 -> lcg s = lcg t -> s = t.
Proof.
  intros s t Hs Ht H. unfold lcg in H. apply mod_eq_divide in H; [|lia].
  assert (Hd : (2 ^ 32 | (s - t) * (2 * 107006 + 1))).
  { destruct H as [z Hz]. exists z. lia. }
  apply odd_cancel in Hd; [|lia]. destruct Hd as [z Hz]. nia.
Qed.

Lemma mask15 : forall x, Z.land x 32767 = x mod 2 ^ 15.
Proof. intros x. change 32767 with (Z.ones 15). apply Z.land_ones. lia. Qed.

Lemma lcg_out_bits : forall s, 0 <= s < 2 ^ 32 -> lcg_out s = (s / 2 ^ 16) mod 2 ^ 15.
Proof.
  intros s Hs. unfold lcg_out. rewrite mask15, Z.shiftr_div_pow2 by lia. unfold signed32.
  destruct (Z.ltb_spec s (2 ^ 31)); [reflexivity|].
  replace (s - 2 ^ 32) with (s + (- 2 ^ 16) * 2 ^ 16) by ring.
  rewrite Z.div_add by lia. replace (s / 2 ^ 16 + - 2 ^ 16) with (s / 2 ^ 16 + (- 2) * 2 ^ 15) by ring.
  apply Z_mod_plus_full.
Qed.

Lemma lcg_out_range : forall s, 0 <= lcg_out s <= 32767.
Proof. intros s. unfold lcg_out. rewrite mask15. pose proof (Z.mod_pos_bound (Z.shiftr (signed32 s) 16) (2 ^ 15)). lia. Qed.

(** ** vector version *)
Lemma land_full : forall x, Z.land (lo32 x) 4294967295 = lo32 x.
Proof.
  intros x. change 4294967295 with (Z.ones 32). rewrite Z.land_ones by lia. unfold lo32. apply Z.mod_mod. lia.
Qed.

Definition lanewise (g : v4) : v4 :=
  let '(a, b, c, d) := g in
  ((214013 * a + 2531011) mod 2 ^ 32, (17405 * b + 10395331) mod 2 ^ 32,
   (214013 * c + 13737667) mod 2 ^ 32, (69069 * d + 1) mod 2 ^ 32).

Lemma vec_state : forall g, fastrand_vec_state g = lanewise g.
Proof.
  intros [[[a b] c] d]. unfold fastrand_vec_state, lanewise, shuf2301, mul_epu32, and_v4, or_v4, add_epi32, map2_v4.
  rewrite !land_full, !Z.land_0_r, !Z.lor_0_r, !Z.lor_0_l. unfold lo32. rewrite !Zplus_mod_idemp_l.
  rewrite !(Z.mul_comm _ 214013), !(Z.mul_comm _ 17405), !(Z.mul_comm _ 69069). reflexivity.
Qed.

Lemma signed32_mod : forall x, in_int32 x = true -> signed32 (x mod 2 ^ 32) = x.
Proof.
  intros x H. unfold in_int32 in H. unfold signed32.
  destruct (Z.lt_ge_cases x 0).
  - replace (x mod 2 ^ 32) with (x + 2 ^ 32).
    + destruct (Z.ltb_spec (x + 2 ^ 32) (2 ^ 31)); lia.
    + apply Z.mod_unique with (-1); lia.
  - rewrite Z.mod_small by lia. destruct (Z.ltb_spec x (2 ^ 31)); lia.
Qed.

Lemma checked_agrees : forall s r s', fastrand_checked s = Some (r, s') ->
  fastrand (s mod 2 ^ 32) = (r, s' mod 2 ^ 32).
Proof.
  intros s r s' H. unfold fastrand_checked in H.
  destruct (in_int32 (214013 * s) && in_int32 (214013 * s + 2531011)) eqn:E; [|discriminate].
  apply andb_prop in E. destruct E as [_ E].
  assert (Hl : lcg (s mod 2 ^ 32) = (214013 * s + 2531011) mod 2 ^ 32).
  { unfold lcg. rewrite <- Zplus_mod_idemp_l, Zmult_mod_idemp_r, Zplus_mod_idemp_l. reflexivity. }
  unfold fastrand. rewrite Hl. unfold lcg_out. rewrite signed32_mod by exact E. 
  cbv zeta in H. remember (214013 * s + 2531011) as y. injection H as <- <-. reflexivity.
Qed.
