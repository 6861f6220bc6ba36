From Coq Require Import NArith ZArith List Bool Lia.
From Coq Require Import ZifyN ZifyBool ZifyNat.
From Verif Require Import Model.Bits Spec.Bits.
Import ListNotations.
Open Scope N_scope.

(** ** powers of two *)
Lemma smear_bits : forall v u s, (forall i, N.testbit u i = true <-> exists j, j < s /\ N.testbit v (i + j) = true) ->
  forall i, N.testbit (smear s u) i = true <-> exists j, j < 2 * s /\ N.testbit v (i + j) = true.
Proof.
  intros v u s H i. unfold smear. rewrite N.lor_spec, N.shiftr_spec' , orb_true_iff, !H.
  split.
  - intros [[j [Hj Hb]]|[j [Hj Hb]]].
    + exists j; split; [lia|exact Hb].
    + exists (s + j); split; [lia|]. rewrite N.add_assoc. exact Hb.
  - intros [j [Hj Hb]]. destruct (N.lt_ge_cases j s) as [Hl|Hl].
    + left; exists j; auto.
    + right; exists (j - s); split; [lia|]. replace (i + s + (j - s)) with (i + j) by lia. exact Hb.
Qed.

Lemma testbit_size_bound : forall v i, N.testbit v i = true -> i < N.size v.
Proof.
  intros v i H. destruct (N.eq_dec v 0) as [->|Hn]; [rewrite N.bits_0 in H; discriminate|].
  rewrite N.size_log2 by exact Hn. destruct (N.lt_ge_cases (N.log2 v) i) as [Hl|Hl]; [|lia].
  rewrite N.bits_above_log2 in H by exact Hl. discriminate.
Qed.

Lemma smear_all : forall v, v < 2 ^ 32 ->
  smear 16 (smear 8 (smear 4 (smear 2 (smear 1 v)))) = N.ones (N.size v).
Proof.
  intros v Hv.
  assert (H0 : forall i, N.testbit v i = true <-> exists j, j < 1 /\ N.testbit v (i + j) = true).
  { intros i; split.
    - intros H; exists 0; split; [lia|]. rewrite N.add_0_r; exact H.
    - intros [j [Hj H]]. replace j with 0 in H by lia. rewrite N.add_0_r in H; exact H. }
  pose proof (smear_bits _ _ _ H0) as H1. pose proof (smear_bits _ _ _ H1) as H2.
  pose proof (smear_bits _ _ _ H2) as H3. pose proof (smear_bits _ _ _ H3) as H4.
  pose proof (smear_bits _ _ _ H4) as H5.
  change (2 * 1) with 2 in *. change (2 * 2) with 4 in *. change (2 * 4) with 8 in *. change (2 * 8) with 16 in *.
  change (2 * 16) with 32 in *.
  apply N.bits_inj. intros i.
  apply eq_true_iff_eq. rewrite H5.
  assert (Hs : N.size v <= 32).
  { destruct (N.eq_dec v 0) as [->|Hn]; [simpl; lia|]. rewrite N.size_log2 by exact Hn.
    assert (N.log2 v < 32) by (apply N.log2_lt_pow2; lia). lia. }
  split.
  - intros [j [Hj Hb]]. apply testbit_size_bound in Hb. apply N.ones_spec_low. lia.
  - intros Hb. assert (Hi : i < N.size v).
    { destruct (N.lt_ge_cases i (N.size v)) as [Hl|Hl]; [exact Hl|]. rewrite N.ones_spec_high in Hb by exact Hl. discriminate. }
    assert (Hn : v <> 0) by (intros ->; simpl in Hi; lia).
    rewrite N.size_log2 in * by exact Hn. exists (N.log2 v - i). split; [lia|].
    replace (i + (N.log2 v - i)) with (N.log2 v) by lia. apply N.bit_log2. exact Hn.
Qed.

Lemma dec_wrap_pos : forall w n, 0 < n -> n < 2 ^ w -> dec_wrap w n = n - 1.
Proof.
  intros w n Hn Hw. unfold dec_wrap, wrap. replace (n + (2 ^ w - 1)) with ((n - 1) + 1 * 2 ^ w) by lia.
  rewrite N.mod_add by lia. apply N.mod_small. lia.
Qed.

Lemma dec_wrap_0 : forall w, dec_wrap w 0 = 2 ^ w - 1.
Proof. intros w. unfold dec_wrap, wrap. pose proof (N.pow_nonzero 2 w). apply N.mod_small. lia. Qed.

Lemma get_next_pow2_size : forall n, 0 < n -> n < 2 ^ 32 ->
  get_next_pow2 n = wrap 32 (2 ^ N.size (n - 1)).
Proof.
  intros n H0 Hn. unfold get_next_pow2. rewrite dec_wrap_pos by assumption.
  rewrite smear_all by lia. rewrite N.ones_equiv.
  pose proof (N.pow_nonzero 2 (N.size (n - 1))). f_equal. lia.
Qed.

Lemma get_next_pow2_least : forall n, 1 <= n -> n <= 2 ^ 31 -> least_pow2_above n (get_next_pow2 n).
Proof.
  intros n H1 H2.
  assert (H31 : 2 ^ 31 < 2 ^ 32) by (apply N.pow_lt_mono_r; lia).
  rewrite get_next_pow2_size by lia.
  assert (Hs : N.size (n - 1) <= 31).
  { destruct (N.eq_dec (n - 1) 0) as [->|Hz]; [simpl; lia|]. rewrite N.size_log2 by exact Hz.
    assert (N.log2 (n - 1) < 31) by (apply N.log2_lt_pow2; lia). lia. }
  assert (Hw : wrap 32 (2 ^ N.size (n - 1)) = 2 ^ N.size (n - 1)).
  { apply N.mod_small. apply N.pow_lt_mono_r; lia. }
  rewrite Hw. repeat split.
  - exists (N.size (n - 1)). reflexivity.
  - pose proof (N.size_gt (n - 1)). lia.
  - intros q [k ->] Hk. apply N.pow_le_mono_r; [lia|].
    destruct (N.eq_dec (n - 1) 0) as [Hz|Hz]; [rewrite Hz; simpl; lia|].
    rewrite N.size_log2 by exact Hz.
    destruct (N.le_gt_cases (N.succ (N.log2 (n - 1))) k) as [Hl|Hl]; [exact Hl|exfalso].
    assert (2 ^ k <= 2 ^ N.log2 (n - 1)) by (apply N.pow_le_mono_r; lia).
    pose proof (N.log2_spec (n - 1)). lia.
Qed.

Lemma get_next_pow2_overflow : forall n, n < 2 ^ 32 -> (n = 0 \/ 2 ^ 31 < n) -> get_next_pow2 n = 0.
Proof.
  intros n Hn [->|H].
  - vm_compute. reflexivity.
  - rewrite get_next_pow2_size by lia.
    assert (Hs : N.size (n - 1) = 32).
    { assert (Hz : n - 1 <> 0) by lia. rewrite N.size_log2 by exact Hz.
      assert (N.log2 (n - 1) < 32) by (apply N.log2_lt_pow2; lia).
      assert (31 <= N.log2 (n - 1)) by (apply N.log2_le_pow2; lia). lia. }
    rewrite Hs. reflexivity.
Qed.

Lemma ispow2_spec : forall w n, n < 2 ^ w -> ispow2 w n = true <-> (n = 0 \/ is_power_of_two n).
Proof.
  intros w n Hn. unfold ispow2. rewrite N.eqb_eq.
  destruct (N.eq_dec n 0) as [->|Hz].
  { rewrite N.land_0_l. tauto. }
  rewrite dec_wrap_pos by lia. split.
  - intros H. right. exists (N.log2 n).
    pose proof (N.log2_spec n ltac:(lia)) as [Hl Hu].
    destruct (N.eq_dec n (2 ^ N.log2 n)) as [E|E]; [exact E|exfalso].
    assert (Hb : N.testbit (N.land n (n - 1)) (N.log2 n) = true).
    { rewrite N.land_spec, N.bit_log2 by exact Hz. simpl.
      replace (N.log2 n) with (N.log2 (n - 1)).
      - apply N.bit_log2. pose proof (N.pow_nonzero 2 (N.log2 n)). lia.
      - apply N.log2_unique; [lia|]. split; lia. }
    rewrite H, N.bits_0 in Hb. discriminate.
  - intros [?|[k ->]]; [lia|]. apply N.bits_inj. intros i. rewrite N.land_spec, N.bits_0, N.pow2_bits_eqb.
    destruct (N.eqb_spec k i) as [->|?]; [|reflexivity]. cbn [andb].
    replace (2 ^ i - 1) with (N.ones i) by (rewrite N.ones_equiv; lia). apply N.ones_spec_high. lia.
Qed.

(** ** population count *)
Lemma ones_shift_split : forall w v x, ones (v + w) x = ones v x + ones w (N.shiftr x (N.of_nat v)).
Proof.
  induction w as [|w IH]; intros v x.
  - rewrite Nat.add_0_r. simpl. lia.
  - rewrite Nat.add_succ_r. cbn [ones]. rewrite IH, N.shiftr_spec'.
    replace (N.of_nat (v + w)) with (N.of_nat w + N.of_nat v) by lia. lia.
Qed.

Lemma ones_le : forall w x, ones w x <= N.of_nat w.
Proof. induction w as [|w IH]; intros x; [simpl; lia|]. cbn [ones]. specialize (IH x). destruct (N.testbit x (N.of_nat w)); lia. Qed.

Lemma ones_ext : forall w x y, (forall i, i < N.of_nat w -> N.testbit x i = N.testbit y i) -> ones w x = ones w y.
Proof.
  induction w as [|w IH]; intros x y H; [reflexivity|]. cbn [ones]. rewrite H by lia.
  f_equal. apply IH. intros i Hi. apply H. lia.
Qed.

Lemma ones_wrap : forall w x, ones w (wrap (N.of_nat w) x) = ones w x.
Proof. intros w x. apply ones_ext. intros i Hi. unfold wrap. apply N.mod_pow2_bits_low. exact Hi. Qed.

Lemma wrap_lt : forall w x, wrap w x < 2 ^ w.
Proof. intros. unfold wrap. apply N.mod_lt. apply N.pow_nonzero. lia. Qed.

Lemma lut8_check :
  forallb (fun k => match nth_error popcnt_lut8 k with
                    | Some c => c =? ones 8 (N.of_nat k) | None => false end) (seq 0 256) = true.
Proof. vm_compute. reflexivity. Qed.

Lemma popcount8_ones : forall x, x < 256 -> popcount8 x = Some (ones 8 x).
Proof.
  intros x Hx. pose proof lut8_check as H. rewrite forallb_forall in H.
  specialize (H (N.to_nat x)). unfold popcount8.
  destruct (nth_error popcnt_lut8 (N.to_nat x)) as [c|] eqn:E.
  - f_equal. assert (Hin : In (N.to_nat x) (seq 0 256)) by (apply in_seq; lia).
    apply H in Hin. apply N.eqb_eq in Hin. rewrite N2Nat.id in Hin. exact Hin.
  - apply nth_error_None in E. change (length popcnt_lut8) with 256%nat in E. lia.
Qed.

Lemma popcount_bytes_ones : forall nb l x acc, acc + 8 * N.of_nat nb < 256 ->
  popcount_bytes nb l x acc = Some (acc + ones (8 * nb) (N.shiftr x (N.of_nat (8 * l)))).
Proof.
  induction nb as [|nb IH]; intros l x acc H.
  - cbn [popcount_bytes]. simpl ones. rewrite N.add_0_r. reflexivity.
  - cbn [popcount_bytes].
    rewrite popcount8_ones by (apply (wrap_lt 8)).
    rewrite (ones_wrap 8).
    pose proof (ones_le 8 (N.shiftr x (N.of_nat l * 8))).
    assert (Ha : wrap 8 (acc + ones 8 (N.shiftr x (N.of_nat l * 8))) = acc + ones 8 (N.shiftr x (N.of_nat l * 8))).
    { apply N.mod_small. change (2 ^ 8) with 256. lia. }
    rewrite Ha, IH by lia. f_equal.
    replace (8 * S nb)%nat with (8 + 8 * nb)%nat by lia.
    rewrite ones_shift_split, N.shiftr_shiftr.
    replace (N.of_nat (8 * l) + N.of_nat 8) with (N.of_nat (8 * S l)) by lia.
    replace (N.of_nat l * 8) with (N.of_nat (8 * l)) by lia. lia.
Qed.

Lemma popcount_ones : forall nb x, (nb <= 31)%nat -> popcount nb x = Some (ones (8 * nb) x).
Proof.
  intros nb x H. unfold popcount. rewrite popcount_bytes_ones by lia.
  change (N.of_nat (8 * 0)) with 0. rewrite N.shiftr_0_r. f_equal.
Qed.

Lemma ones_lxor : forall w a b, ones w (N.lxor a b) = differing w a b.
Proof.
  induction w as [|w IH]; intros a b; [reflexivity|]. cbn [ones differing]. rewrite IH, N.lxor_spec.
  destruct (N.testbit a (N.of_nat w)), (N.testbit b (N.of_nat w)); reflexivity.
Qed.

Lemma hdist_differing : forall nb a b, (nb <= 31)%nat -> hdist nb a b = Some (differing (8 * nb) a b).
Proof. intros. unfold hdist. rewrite popcount_ones by assumption. rewrite ones_lxor. reflexivity. Qed.

Lemma differing_refl : forall w a, differing w a a = 0.
Proof. induction w as [|w IH]; intros a; [reflexivity|]. cbn [differing]. rewrite IH, Bool.eqb_reflx. reflexivity. Qed.

Lemma differing_sym : forall w a b, differing w a b = differing w b a.
Proof.
  induction w as [|w IH]; intros a b; [reflexivity|]. cbn [differing]. rewrite IH.
  destruct (N.testbit a (N.of_nat w)), (N.testbit b (N.of_nat w)); reflexivity.
Qed.

Lemma differing_triangle : forall w a b c, differing w a c <= differing w a b + differing w b c.
Proof.
  induction w as [|w IH]; intros a b c; [simpl; lia|]. cbn [differing]. specialize (IH a b c).
  destruct (N.testbit a (N.of_nat w)), (N.testbit b (N.of_nat w)), (N.testbit c (N.of_nat w)); simpl Bool.eqb; cbv iota; lia.
Qed.

Lemma differing_bits : forall w a b, differing w a b = 0 -> forall i, i < N.of_nat w -> N.testbit a i = N.testbit b i.
Proof.
  induction w as [|w IH]; intros a b H i Hi; [lia|]. cbn [differing] in H.
  destruct (Bool.eqb (N.testbit a (N.of_nat w)) (N.testbit b (N.of_nat w))) eqn:E; [|lia].
  destruct (N.eq_dec i (N.of_nat w)) as [->|?].
  - apply Bool.eqb_prop. exact E.
  - apply IH; lia.
Qed.

Lemma differing_zero : forall w a b, a < 2 ^ N.of_nat w -> b < 2 ^ N.of_nat w ->
  differing w a b = 0 <-> a = b.
Proof.
  intros w a b Ha Hb. split; [|intros ->; apply differing_refl].
  intros H. apply N.bits_inj. intros i. destruct (N.lt_ge_cases i (N.of_nat w)) as [Hi|Hi].
  - apply (differing_bits w); assumption.
  - rewrite <- (N.mod_small a (2 ^ N.of_nat w)), <- (N.mod_small b (2 ^ N.of_nat w)) by assumption.
    rewrite !N.mod_pow2_bits_high by exact Hi. reflexivity.
Qed.

Lemma wrap_add_l : forall w a b, wrap w (wrap w a + b) = wrap w (a + b).
Proof. intros. unfold wrap. apply N.add_mod_idemp_l. apply N.pow_nonzero. lia. Qed.

Lemma hdist_arr_sum : forall w nb xs ys acc, (nb <= 31)%nat -> acc < 2 ^ w -> length xs = length ys ->
  hdist_arr w nb xs ys acc = Some (wrap w (acc + differing_arr (8 * nb) xs ys)).
Proof.
  intros w nb xs. induction xs as [|x r IH]; intros [|y s] acc Hnb Ha Hl; try discriminate.
  - simpl. rewrite N.add_0_r. unfold wrap. rewrite N.mod_small by exact Ha. reflexivity.
  - cbn [hdist_arr differing_arr]. rewrite popcount_ones by exact Hnb. rewrite ones_lxor.
    rewrite IH; [|exact Hnb|apply wrap_lt|simpl in Hl; lia].
    rewrite wrap_add_l, N.add_assoc. reflexivity.
Qed.

Lemma gdist_ones : forall nb a b, (nb <= 31)%nat ->
  gdist nb a b = Some (N.max (ones (8 * nb) a) (ones (8 * nb) b) - N.min (ones (8 * nb) a) (ones (8 * nb) b)).
Proof.
  intros nb a b H. unfold gdist. rewrite !popcount_ones by exact H. f_equal.
  destruct (N.ltb_spec (ones (8 * nb) a) (ones (8 * nb) b)); lia.
Qed.

Lemma ones_diff_bound : forall w a b, ones w a <= ones w b + differing w a b.
Proof.
  induction w as [|w IH]; intros a b; [simpl; lia|]. cbn [ones differing]. specialize (IH a b).
  destruct (N.testbit a (N.of_nat w)), (N.testbit b (N.of_nat w)); simpl Bool.eqb; cbv iota; lia.
Qed.

Lemma gdist_le_hdist : forall nb a b g h, (nb <= 31)%nat -> gdist nb a b = Some g -> hdist nb a b = Some h -> g <= h.
Proof.
  intros nb a b g h H Hg Hh. rewrite gdist_ones in Hg by exact H. rewrite hdist_differing in Hh by exact H.
  revert Hg Hh. generalize (8 * nb)%nat. intros w Hg Hh. injection Hg as <-. injection Hh as <-.
  pose proof (ones_diff_bound w a b) as H1. pose proof (ones_diff_bound w b a) as H2.
  rewrite (differing_sym _ b a) in H2. lia.
Qed.

(** ** bit expansion *)
Lemma expand_bits_from_spec : forall n w k v, 1 < k -> w <= 32 -> N.of_nat n * k < w ->
  exists r, expand_bits_from w k v n = Some r /\ r < 2 ^ (N.of_nat n * k + 1) /\
    forall i, N.testbit r i = (i mod k =? 0) && (i / k <=? N.of_nat n) && N.testbit v (i / k).
Proof.
  induction n as [|n IH]; intros w k v Hk Hw Hn.
  - cbn [expand_bits_from].
    destruct ((31 <? N.of_nat 0) || (31 <? N.of_nat 0 * k)) eqn:E; [lia|].
    eexists; split; [reflexivity|].
    assert (Hb : forall b, wrap w (if (b : bool) then 0 else N.shiftl 1 (N.of_nat 0 * k)) = if b then 0 else 1).
    { intros [|]; cbn [N.of_nat]; rewrite ?N.mul_0_l, ?N.shiftl_0_r; unfold wrap.
      - rewrite N.mod_0_l; [reflexivity|apply N.pow_nonzero; lia].
      - apply N.mod_small. assert (2 ^ 1 <= 2 ^ w) by (apply N.pow_le_mono_r; lia). simpl in H |- *. lia. }
    rewrite Hb. change (N.shiftl 1 (N.of_nat 0)) with 1. split.
    + destruct (N.land v 1 =? 0); simpl; lia.
    + assert (Hl : N.land v 1 = if N.testbit v 0 then 1 else 0).
      { apply N.bits_inj. intros j. rewrite N.land_spec. destruct (N.eq_dec j 0) as [->|Hj].
        - destruct (N.testbit v 0); reflexivity.
        - replace (N.testbit 1 j) with false by (destruct j; [lia|reflexivity]).
          rewrite andb_false_r. destruct (N.testbit v 0); [|rewrite N.bits_0; reflexivity].
          destruct j; [lia|reflexivity]. }
      rewrite Hl. intros i. cbn [N.of_nat].
      destruct (N.testbit v 0) eqn:Ev.
      * change (1 =? 0) with false. cbv iota.
        destruct (N.eq_dec i 0) as [->|Hi].
        -- rewrite N.mod_0_l, N.div_0_l by lia. rewrite Ev. reflexivity.
        -- replace (N.testbit 1 i) with false by (destruct i; [lia|reflexivity]).
           destruct (i mod k =? 0) eqn:Em; [|reflexivity]. destruct (i / k <=? 0) eqn:Ed; [|reflexivity].
           exfalso. pose proof (N.div_mod i k). nia.
      * change (0 =? 0) with true. cbv iota. rewrite N.bits_0.
        destruct (i mod k =? 0) eqn:Em; [|reflexivity]. destruct (i / k <=? 0) eqn:Ed; [|reflexivity].
        apply N.leb_le in Ed. apply N.le_0_r in Ed. rewrite Ed, Ev. reflexivity.
  - cbn [expand_bits_from].
    assert (HS : N.of_nat (S n) * k = N.of_nat n * k + k) by nia.
    assert (E : (31 <? N.of_nat (S n)) || (31 <? N.of_nat (S n) * k) = false).
    { apply orb_false_iff. split; apply N.ltb_ge; nia. }
    rewrite E.
    destruct (IH w k v Hk Hw ltac:(nia)) as (r & Hr & Hlt & Hbits). rewrite Hr.
    set (p := N.of_nat (S n) * k) in *.
    set (b := N.testbit v (N.of_nat (S n))).
    assert (Hl : (N.land v (N.shiftl 1 (N.of_nat (S n))) =? 0) = negb b).
    { assert (Hl : N.land v (N.shiftl 1 (N.of_nat (S n))) = if b then 2 ^ N.of_nat (S n) else 0).
      { apply N.bits_inj. intros j. rewrite N.land_spec, N.shiftl_1_l, N.pow2_bits_eqb.
        destruct (N.eqb_spec (N.of_nat (S n)) j) as [<-|Hj].
        - rewrite andb_true_r. fold b. destruct b; [rewrite N.pow2_bits_true|rewrite N.bits_0]; reflexivity.
        - rewrite andb_false_r. destruct b; [rewrite N.pow2_bits_false by exact Hj|rewrite N.bits_0]; reflexivity. }
      rewrite Hl. destruct b; [|reflexivity]. simpl negb. apply N.eqb_neq. apply N.pow_nonzero. lia. }
    rewrite Hl.
    assert (Hp : 2 ^ p < 2 ^ w) by (apply N.pow_lt_mono_r; lia).
    assert (Hr2 : r < 2 ^ p) by (eapply N.lt_le_trans; [exact Hlt|]; apply N.pow_le_mono_r; lia).
    assert (Hw2 : wrap w (if negb b then 0 else N.shiftl 1 p) = if b then 2 ^ p else 0).
    { unfold wrap. destruct b; simpl negb; cbv iota; rewrite ?N.shiftl_1_l; apply N.mod_small; lia. }
    rewrite Hw2.
    assert (Hd : 2 ^ (p + 1) = 2 ^ p + 2 ^ p) by (rewrite N.pow_add_r; change (2 ^ 1) with 2; lia).
    assert (Hp1 : 2 ^ (p + 1) <= 2 ^ w) by (apply N.pow_le_mono_r; lia).
    eexists; split; [reflexivity|].
    assert (Hs : wrap w ((if b then 2 ^ p else 0) + r) = (if b then 2 ^ p else 0) + r).
    { unfold wrap. apply N.mod_small. destruct b; lia. }
    rewrite Hs. split; [destruct b; lia|].
    intros i.
    assert (Hor : (if b then 2 ^ p else 0) + r = N.lor (if b then 2 ^ p else 0) r).
    { assert (Hland : N.land (if b then 2 ^ p else 0) r = 0).
      { destruct b; [|apply N.land_0_l]. apply N.bits_inj. intros j. rewrite N.land_spec, N.bits_0, N.pow2_bits_eqb.
        destruct (N.eqb_spec p j) as [<-|?]; [|reflexivity]. cbn [andb].
        rewrite <- (N.mod_small r (2 ^ p)) by exact Hr2. apply N.mod_pow2_bits_high. lia. }
      rewrite N.add_nocarry_lxor by exact Hland. rewrite <- N.lxor_lor by exact Hland. reflexivity. }
    rewrite Hor, N.lor_spec, Hbits.
    replace (N.testbit (if b then 2 ^ p else 0) i) with (b && (p =? i)).
    2: { destruct b; [rewrite N.pow2_bits_eqb|rewrite N.bits_0]; reflexivity. }
    destruct (N.eqb_spec p i) as [<-|Hpi].
    + assert (Hm : p mod k = 0) by (unfold p; apply N.mod_mul; lia).
      assert (Hq : p / k = N.of_nat (S n)) by (unfold p; apply N.div_mul; lia).
      rewrite Hm, Hq. change (0 =? 0) with true.
      rewrite (proj2 (N.leb_gt (N.of_nat (S n)) (N.of_nat n))) by lia.
      rewrite N.leb_refl. fold b. destruct b; reflexivity.
    + rewrite andb_false_r. cbn [orb].
      destruct (N.eqb_spec (i mod k) 0) as [Hm|Hm]; [|reflexivity]. cbn [andb].
      assert (Hne : i / k <> N.of_nat (S n)).
      { intros C. apply Hpi. pose proof (N.div_mod i k). unfold p. nia. }
      replace (i / k <=? N.of_nat (S n)) with (i / k <=? N.of_nat n); [reflexivity|].
      apply eq_true_iff_eq. rewrite !N.leb_le. lia.
Qed.

Lemma expand_bits_spec : forall w k v, 1 < k -> k <= w -> w <= 32 ->
  exists r, expand_bits w k v = Some r /\ r < 2 ^ w /\
    forall i, N.testbit r i = (i mod k =? 0) && (i / k <? w / k) && N.testbit v (i / k).
Proof.
  intros w k v Hk Hkw Hw. unfold expand_bits. destruct (N.eqb_spec k 1); [lia|].
  assert (H1 : 1 <= w / k) by (apply N.div_le_lower_bound; lia).
  assert (Hm : k * (w / k) <= w) by (apply N.mul_div_le; lia).
  destruct (expand_bits_from_spec (N.to_nat (w / k - 1)) w k v Hk Hw ltac:(rewrite N2Nat.id; nia)) as (r & Hr & Hlt & Hb).
  exists r. split; [exact Hr|]. split.
  - eapply N.lt_le_trans; [exact Hlt|]. apply N.pow_le_mono_r; [lia|]. rewrite N2Nat.id. nia.
  - intros i. rewrite Hb, N2Nat.id. f_equal. f_equal. apply eq_true_iff_eq. rewrite N.leb_le, N.ltb_lt. lia.
Qed.

Lemma expand_bits_injective : forall w k a b, 1 < k -> k <= w -> w <= 32 ->
  a < 2 ^ (w / k) -> b < 2 ^ (w / k) -> expand_bits w k a = expand_bits w k b -> a = b.
Proof.
  intros w k a b Hk Hkw Hw Ha Hb E.
  destruct (expand_bits_spec w k a Hk Hkw Hw) as (r & Hr & _ & Br).
  destruct (expand_bits_spec w k b Hk Hkw Hw) as (s & Hs & _ & Bs).
  rewrite Hr, Hs in E. injection E as <-.
  apply N.bits_inj. intros i. destruct (N.lt_ge_cases i (w / k)) as [Hi|Hi].
  - specialize (Br (i * k)). specialize (Bs (i * k)). rewrite Br in Bs.
    rewrite N.mod_mul, N.div_mul in Bs by lia. rewrite (proj2 (N.ltb_lt i (w / k)) Hi) in Bs. exact Bs.
  - rewrite <- (N.mod_small a (2 ^ (w / k))), <- (N.mod_small b (2 ^ (w / k))) by assumption.
    rewrite !N.mod_pow2_bits_high by exact Hi. reflexivity.
Qed.

(** ** bit extension *)
Lemma extend_bits_val : forall w v o e, o <= e -> e <= 2 * o -> e <= w -> v < 2 ^ o ->
  extend_bits w v o e = v * 2 ^ (e - o) + v / 2 ^ (2 * o - e) /\ v * 2 ^ (e - o) + v / 2 ^ (2 * o - e) < 2 ^ e.
Proof.
  intros w v o e H1 H2 H3 Hv. unfold extend_bits.
  replace (o - (e - o)) with (2 * o - e) by lia.
  rewrite N.shiftl_mul_pow2, N.shiftr_div_pow2.
  set (d := e - o). set (q := v / 2 ^ (2 * o - e)).
  assert (Hpo : 2 ^ o = 2 ^ (2 * o - e) * 2 ^ d) by (rewrite <- N.pow_add_r; f_equal; unfold d; lia).
  assert (Hq : q < 2 ^ d).
  { apply N.div_lt_upper_bound; [apply N.pow_nonzero; lia|]. rewrite <- Hpo. exact Hv. }
  assert (Hland : N.land (v * 2 ^ d) q = 0).
  { apply N.bits_inj. intros i. rewrite N.land_spec, N.bits_0. destruct (N.lt_ge_cases i d) as [Hi|Hi].
    - rewrite N.mul_pow2_bits_low by exact Hi. reflexivity.
    - rewrite <- (N.mod_small q (2 ^ d)) by exact Hq. rewrite N.mod_pow2_bits_high by exact Hi. apply andb_false_r. }
  assert (Hor : N.lor (v * 2 ^ d) q = v * 2 ^ d + q).
  { rewrite N.add_nocarry_lxor by exact Hland. rewrite <- N.lxor_lor by exact Hland. reflexivity. }
  rewrite Hor.
  assert (Hb : v * 2 ^ d + q < 2 ^ e).
  { replace e with (o + d) by (unfold d; lia). rewrite N.pow_add_r. nia. }
  split; [|exact Hb]. unfold wrap. apply N.mod_small. eapply N.lt_le_trans; [exact Hb|]. apply N.pow_le_mono_r; lia.
Qed.

Lemma extend_bits_max : forall w o e, 0 < o -> o <= e -> e <= 2 * o -> e <= w ->
  extend_bits w (2 ^ o - 1) o e = 2 ^ e - 1.
Proof.
  intros w o e H0 H1 H2 H3. pose proof (N.pow_nonzero 2 o).
  destruct (extend_bits_val w (2 ^ o - 1) o e H1 H2 H3 ltac:(lia)) as [-> _].
  assert (Hpo : 2 ^ o = 2 ^ (2 * o - e) * 2 ^ (e - o)) by (rewrite <- N.pow_add_r; f_equal; lia).
  assert (Hq : (2 ^ o - 1) / 2 ^ (2 * o - e) = 2 ^ (e - o) - 1).
  { pose proof (N.pow_nonzero 2 (2 * o - e)). pose proof (N.pow_nonzero 2 (e - o)).
    symmetry. apply N.div_unique with (r := 2 ^ (2 * o - e) - 1); [lia|]. rewrite Hpo. nia. }
  rewrite Hq. replace (2 ^ e) with (2 ^ o * 2 ^ (e - o)) by (rewrite <- N.pow_add_r; f_equal; lia).
  pose proof (N.pow_nonzero 2 (e - o)). nia.
Qed.

Lemma extend_bits_mono : forall w a b o e, o <= e -> e <= 2 * o -> e <= w -> a < b -> b < 2 ^ o ->
  extend_bits w a o e < extend_bits w b o e.
Proof.
  intros w a b o e H1 H2 H3 Hab Hb.
  destruct (extend_bits_val w a o e H1 H2 H3 ltac:(lia)) as [-> _].
  destruct (extend_bits_val w b o e H1 H2 H3 Hb) as [-> _].
  pose proof (N.pow_nonzero 2 (e - o)).
  assert (a / 2 ^ (2 * o - e) <= b / 2 ^ (2 * o - e)) by (apply N.div_le_mono; [apply N.pow_nonzero; lia|lia]).
  nia.
Qed.
