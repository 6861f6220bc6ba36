From Coq Require Import ZArith List Bool Lia.
From Verif Require Import Lib.Grid Model.Submodular Spec.Submodular.
Import ListNotations.
Open Scope Z_scope.

(* bits *)
Lemma bits_ext a b : (forall i, 0 <= i -> Z.testbit a i = Z.testbit b i) -> a = b.
Proof. intros H. apply Z.bits_inj'. exact H. Qed.
Lemma pow_pos n : 0 <= n -> 0 < 2 ^ n.
Proof. intros. apply Z.pow_pos_nonneg; lia. Qed.
Lemma bit_high n S i : within n S -> n <= i -> Z.testbit S i = false.
Proof.
  intros [H0 H1] Hi. destruct (Z.eq_dec S 0) as [->|Hz]; [apply Z.bits_0|].
  apply Z.bits_above_log2; [lia|]. assert (Z.log2 S < n) by (apply Z.log2_lt_pow2; lia). lia.
Qed.
Lemma within_bits n S : 0 <= n -> 0 <= S -> (forall i, n <= i -> Z.testbit S i = false) -> within n S.
Proof.
  intros Hn H0 H. split; [exact H0|]. destruct (Z_lt_le_dec S (2 ^ n)) as [|L]; [assumption|exfalso].
  assert (0 < 2 ^ n) by (apply pow_pos; lia). assert (n <= Z.log2 S) by (apply Z.log2_le_pow2; lia).
  assert (E := Z.bit_log2 S ltac:(lia)). rewrite H in E by lia. discriminate.
Qed.
Lemma within_0 n : 0 <= n -> within n 0.
Proof. intros. split; [lia|apply pow_pos; lia]. Qed.
Lemma within_lor n A B : 0 <= n -> within n A -> within n B -> within n (Z.lor A B).
Proof.
  intros Hn HA HB. apply within_bits; [lia|apply Z.lor_nonneg; split; [apply HA|apply HB]|].
  intros i Hi. rewrite Z.lor_spec, (bit_high n A), (bit_high n B) by assumption. reflexivity.
Qed.
Lemma within_land n A B : 0 <= n -> within n A -> within n (Z.land A B).
Proof.
  intros Hn HA. apply within_bits; [lia|apply Z.land_nonneg; left; apply HA|].
  intros i Hi. rewrite Z.land_spec, (bit_high n A) by assumption. reflexivity.
Qed.
Lemma within_lxor n A B : 0 <= n -> within n A -> within n B -> within n (Z.lxor A B).
Proof.
  intros Hn HA HB. apply within_bits; [lia|apply Z.lxor_nonneg; destruct HA, HB; lia|].
  intros i Hi. rewrite Z.lxor_spec, (bit_high n A), (bit_high n B) by assumption. reflexivity.
Qed.
Lemma within_pow n i : 0 <= i < n -> within n (2 ^ i).
Proof. intros H. split; [assert (0 < 2 ^ i) by (apply pow_pos; lia); lia|apply Z.pow_lt_mono_r; lia]. Qed.
Lemma within_whole n : 0 <= n -> within n (whole n).
Proof. intros H. unfold within, whole. assert (0 < 2 ^ n) by (apply pow_pos; lia). lia. Qed.
Lemma whole_spec n i : 0 <= n -> 0 <= i -> Z.testbit (whole n) i = (i <? n).
Proof.
  intros Hn Hi. unfold whole. rewrite Z.sub_1_r, <- Z.ones_equiv.
  destruct (Z.ltb_spec i n); [apply Z.ones_spec_low|apply Z.ones_spec_high]; lia.
Qed.
Lemma pow_spec i b : 0 <= i -> Z.testbit (2 ^ i) b = (i =? b).
Proof. intros H. apply Z.pow2_bits_eqb. exact H. Qed.
Lemma lor_pow_same s i : 0 <= i -> (Z.lor s (2 ^ i) =? s) = Z.testbit s i.
Proof.
  intros Hi. destruct (Z.testbit s i) eqn:E.
  - apply Z.eqb_eq. apply bits_ext. intros b Hb. rewrite Z.lor_spec, pow_spec by lia.
    destruct (Z.eqb_spec i b) as [<-|]; [rewrite E; reflexivity|apply orb_false_r].
  - apply Z.eqb_neq. intros X. assert (Y : Z.testbit (Z.lor s (2 ^ i)) i = false) by (rewrite X; exact E).
    rewrite Z.lor_spec, pow_spec, Z.eqb_refl, orb_true_r in Y by lia. discriminate.
Qed.
Lemma lor_pow_in s i : 0 <= i -> Z.testbit s i = true -> Z.lor s (2 ^ i) = s.
Proof. intros Hi E. apply Z.eqb_eq. rewrite lor_pow_same; assumption. Qed.

(* the elements of A, and those of B below k *)
Definition chain (A B k : Z) : Z := Z.lor A (B mod 2 ^ k).
Lemma chain_spec A B k b : 0 <= k -> 0 <= b -> Z.testbit (chain A B k) b = Z.testbit A b || (Z.testbit B b && (b <? k)).
Proof.
  intros Hk Hb. unfold chain. rewrite Z.lor_spec. f_equal. destruct (Z.ltb_spec b k).
  - rewrite Z.mod_pow2_bits_low, andb_true_r by lia. reflexivity.
  - rewrite Z.mod_pow2_bits_high, andb_false_r by lia. reflexivity.
Qed.
Lemma within_mod n B k : 0 <= k -> within n B -> within n (B mod 2 ^ k).
Proof.
  intros Hk [H0 H1]. assert (P := pow_pos k Hk). assert (Q := Z.mod_pos_bound B (2 ^ k) P). assert (R := Z.mod_le B (2 ^ k) H0 P). split; lia.
Qed.
Lemma within_chain n A B k : 0 <= n -> 0 <= k -> within n A -> within n B -> within n (chain A B k).
Proof. intros. apply within_lor; auto. apply within_mod; auto. Qed.
Lemma chain_0 A B : chain A B 0 = A.
Proof. unfold chain. rewrite Z.pow_0_r, Z.mod_1_r. apply Z.lor_0_r. Qed.
Lemma chain_n n A B : within n B -> chain A B n = Z.lor A B.
Proof. intros H. unfold chain. rewrite Z.mod_small by exact H. reflexivity. Qed.
Lemma chain_skip A B k : 0 <= k -> Z.testbit A k = true \/ Z.testbit B k = false -> chain A B (k + 1) = chain A B k.
Proof.
  intros Hk H. apply bits_ext. intros b Hb. rewrite !chain_spec by lia.
  destruct (Z.eq_dec b k) as [->|N].
  - destruct H as [->| ->]; [reflexivity|rewrite !andb_false_l; reflexivity].
  - replace (b <? k + 1) with (b <? k) by (destruct (Z.ltb_spec b k), (Z.ltb_spec b (k + 1)); lia). reflexivity.
Qed.
Lemma chain_take A B k : 0 <= k -> Z.testbit B k = true -> chain A B (k + 1) = Z.lor (chain A B k) (2 ^ k).
Proof.
  intros Hk H. apply bits_ext. intros b Hb. rewrite Z.lor_spec, !chain_spec, pow_spec by lia.
  destruct (Z.eqb_spec k b) as [<-|N].
  - rewrite H. replace (k <? k + 1) with true by (symmetry; apply Z.ltb_lt; lia). rewrite !orb_true_r. reflexivity.
  - replace (b <? k + 1) with (b <? k) by (destruct (Z.ltb_spec b k), (Z.ltb_spec b (k + 1)); lia). rewrite orb_false_r. reflexivity.
Qed.

(* the condition that the code checks *)
Definition local (n : Z) (f : Z -> Z) : Prop :=
  forall s i j, within n s -> 0 <= i < n -> 0 <= j < n -> i < j -> Z.testbit s i = false -> Z.testbit s j = false ->
    f s + f (Z.lor (Z.lor s (2 ^ i)) (Z.lor s (2 ^ j))) <= f (Z.lor s (2 ^ i)) + f (Z.lor s (2 ^ j)).
Lemma check_local n f : check_submodular n f = true <-> local n f.
Proof.
  unfold check_submodular, local. rewrite forallb_forall. split.
  - intros H s i j Hs Hi Hj Hij Bi Bj. specialize (H s ltac:(apply in_zrange; unfold within in Hs; lia)).
    rewrite forallb_forall in H. specialize (H i ltac:(apply in_zrange; lia)). cbv zeta in H.
    rewrite lor_pow_same, Bi in H by lia. rewrite forallb_forall in H. specialize (H j ltac:(apply in_zrange; lia)).
    rewrite lor_pow_same, Bj in H by lia. apply negb_true_iff, Z.ltb_ge in H. unfold excess in H. lia.
  - intros H s Hs. apply in_zrange in Hs. apply forallb_forall. intros i Hi. apply in_zrange in Hi. cbv zeta.
    rewrite lor_pow_same by lia. destruct (Z.testbit s i) eqn:Bi; [reflexivity|]. apply forallb_forall. intros j Hj. apply in_zrange in Hj.
    rewrite lor_pow_same by lia. destruct (Z.testbit s j) eqn:Bj; [reflexivity|]. apply negb_true_iff, Z.ltb_ge.
    specialize (H s i j ltac:(unfold within; lia) ltac:(lia) ltac:(lia) ltac:(lia) Bi Bj). unfold excess. lia.
Qed.
Lemma local_sym n f s i j : local n f -> within n s -> 0 <= i < n -> 0 <= j < n -> i <> j -> Z.testbit s i = false -> Z.testbit s j = false ->
  f (Z.lor (Z.lor s (2 ^ j)) (2 ^ i)) - f (Z.lor s (2 ^ j)) <= f (Z.lor s (2 ^ i)) - f s.
Proof.
  intros L Hs Hi Hj N Bi Bj.
  assert (E1 : Z.lor (Z.lor s (2 ^ j)) (2 ^ i) = Z.lor (Z.lor s (2 ^ i)) (Z.lor s (2 ^ j))).
  { apply bits_ext. intros b Hb. rewrite !Z.lor_spec. destruct (Z.testbit s b), (Z.testbit (2 ^ i) b), (Z.testbit (2 ^ j) b); reflexivity. }
  assert (E2 : Z.lor (Z.lor s (2 ^ j)) (2 ^ i) = Z.lor (Z.lor s (2 ^ j)) (Z.lor s (2 ^ i))).
  { apply bits_ext. intros b Hb. rewrite !Z.lor_spec. destruct (Z.testbit s b), (Z.testbit (2 ^ i) b), (Z.testbit (2 ^ j) b); reflexivity. }
  destruct (Z_lt_le_dec i j).
  - rewrite E1. specialize (L s i j Hs Hi Hj ltac:(lia) Bi Bj). lia.
  - rewrite E2. specialize (L s j i Hs Hj Hi ltac:(lia) Bj Bi). lia.
Qed.
(* marginal gains decrease *)
Lemma marginal n f A B m : 0 <= n -> local n f -> within n A -> within n B -> (forall b, 0 <= b -> Z.testbit A b = true -> Z.testbit B b = true) ->
  0 <= m < n -> Z.testbit B m = false -> f (Z.lor B (2 ^ m)) - f B <= f (Z.lor A (2 ^ m)) - f A.
Proof.
  intros Hn L HA HB Sub Hm Bm.
  assert (Am : Z.testbit A m = false) by (destruct (Z.testbit A m) eqn:E; [|reflexivity]; rewrite Sub in Bm by (lia || assumption); discriminate).
  assert (G : forall k : nat, (Z.of_nat k <= n) -> f (Z.lor (chain A B (Z.of_nat k)) (2 ^ m)) - f (chain A B (Z.of_nat k)) <= f (Z.lor A (2 ^ m)) - f A).
  { induction k as [|k IH]; intros Hk; [cbn [Z.of_nat]; rewrite chain_0; lia|].
    rewrite Nat2Z.inj_succ, <- Z.add_1_r in *. set (z := Z.of_nat k) in *. assert (0 <= z) by (subst z; lia).
    destruct (Z.testbit B z) eqn:Bz; [destruct (Z.testbit A z) eqn:Az|].
    - rewrite chain_skip by (try lia; left; assumption). apply IH. lia.
    - rewrite chain_take by (lia || assumption). etransitivity; [|apply IH; lia]. apply (local_sym n); try lia; try assumption.
      + apply within_chain; assumption.
      + intros ->. rewrite Bz in Bm. discriminate.
      + rewrite chain_spec, Am, Bm by lia. reflexivity.
      + rewrite chain_spec, Az, Bz, Z.ltb_irrefl by lia. reflexivity.
    - rewrite chain_skip by (try lia; right; assumption). apply IH. lia. }
  specialize (G (Z.to_nat n) ltac:(lia)). rewrite Z2Nat.id in G by lia. rewrite (chain_n n) in G by assumption.
  replace (Z.lor A B) with B in G; [exact G|]. apply bits_ext. intros b Hb. rewrite Z.lor_spec.
  destruct (Z.testbit A b) eqn:E; [rewrite Sub by assumption|]; reflexivity.
Qed.
Lemma local_global n f : 0 <= n -> (local n f <-> submodular n f).
Proof.
  intros Hn. split.
  - intros L A B HA HB. set (C := Z.land A B). assert (HC : within n C) by (apply within_land; assumption).
    assert (G : forall k : nat, Z.of_nat k <= n -> f (chain A B (Z.of_nat k)) - f A <= f (chain C B (Z.of_nat k)) - f C).
    { induction k as [|k IH]; intros Hk; [cbn [Z.of_nat]; rewrite !chain_0; lia|].
      rewrite Nat2Z.inj_succ, <- Z.add_1_r in *. set (z := Z.of_nat k) in *. assert (0 <= z) by (subst z; lia). specialize (IH ltac:(lia)).
      assert (Cz : Z.testbit C z = Z.testbit A z && Z.testbit B z) by (unfold C; apply Z.land_spec).
      destruct (Z.testbit B z) eqn:Bz; [destruct (Z.testbit A z) eqn:Az|].
      - rewrite !chain_skip by (try lia; left; assumption). exact IH.
      - rewrite !chain_take by (lia || assumption).
        enough (f (Z.lor (chain A B z) (2 ^ z)) - f (chain A B z) <= f (Z.lor (chain C B z) (2 ^ z)) - f (chain C B z)) by lia.
        apply (marginal n); try lia; try assumption; try (apply within_chain; assumption).
        + intros b Hb. rewrite !chain_spec by lia. unfold C. rewrite Z.land_spec. destruct (Z.testbit A b); [reflexivity|exact (fun x => x)].
        + rewrite chain_spec, Az, Bz, Z.ltb_irrefl by lia. reflexivity.
      - rewrite !chain_skip by (try lia; right; assumption). exact IH. }
    specialize (G (Z.to_nat n) ltac:(lia)). rewrite Z2Nat.id in G by lia. rewrite !(chain_n n) in G by assumption.
    replace (Z.lor C B) with B in G; [unfold C in *; lia|]. apply bits_ext. intros b Hb. unfold C. rewrite Z.lor_spec, Z.land_spec.
    destruct (Z.testbit A b), (Z.testbit B b); reflexivity.
  - intros G s i j Hs Hi Hj Hij Bi Bj.
    assert (Wi : within n (Z.lor s (2 ^ i))) by (apply within_lor; [lia|assumption|apply within_pow; lia]).
    assert (Wj : within n (Z.lor s (2 ^ j))) by (apply within_lor; [lia|assumption|apply within_pow; lia]).
    specialize (G _ _ Wi Wj). replace (Z.land (Z.lor s (2 ^ i)) (Z.lor s (2 ^ j))) with s in G; [lia|].
    apply bits_ext. intros b Hb. rewrite Z.land_spec, !Z.lor_spec, !pow_spec by lia.
    destruct (Z.eqb_spec i b), (Z.eqb_spec j b); try lia; destruct (Z.testbit s b); reflexivity.
Qed.
Lemma check_iff n f : 0 <= n -> (check_submodular n f = true <-> submodular n f).
Proof. intros Hn. rewrite check_local. apply local_global. exact Hn. Qed.
