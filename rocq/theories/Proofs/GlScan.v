(* Row sums and transposition in compute shaders: proofs. *)
From Coq Require Import ZArith Reals List Bool Lia Permutation.
From Verif Require Import Lib.Grid Model.Kernels Model.GlScan Spec.GlScan Proofs.Kernels.
Import ListNotations.
Open Scope Z_scope.

Section Sums.
Variable row : Z -> Z.
Lemma between_nil a : sum_between row a a = 0.
Proof. unfold sum_between. replace (a - a) with 0 by lia. reflexivity. Qed.
Lemma fold_add_app l l' : fold_right Z.add 0 (l ++ l') = fold_right Z.add 0 l + fold_right Z.add 0 l'.
Proof. induction l; cbn; lia. Qed.
Lemma between_add a b c : a <= b -> b <= c -> sum_between row a c = sum_between row a b + sum_between row b c.
Proof.
  intros AB BC. unfold sum_between, zrange. rewrite <- fold_add_app, <- map_app. f_equal. f_equal.
  replace (Z.to_nat (c - a)) with (Z.to_nat (b - a) + Z.to_nat (c - b))%nat by lia. rewrite zseq_app. f_equal. f_equal. lia.
Qed.
Lemma between_one a : sum_between row a (a + 1) = row a.
Proof. unfold sum_between. replace (a + 1 - a) with 1 by lia. unfold zrange, zseq. change (Z.to_nat 1) with 1%nat. cbn [seq map fold_right Z.of_nat]. rewrite !Z.add_0_r. reflexivity. Qed.
End Sums.

(* the lists of passes *)
Lemma up_steps_eq : forall a fuel o, (a < fuel)%nat -> up_steps fuel (2 ^ Z.of_nat a) o = map (fun j => (2 ^ Z.of_nat (a - j), o * 2 ^ Z.of_nat j)) (seq 0 (S a)).
Proof.
  induction a as [|a IH]; intros fuel o F; (destruct fuel as [|fuel]; [lia|]); cbn [up_steps].
  - replace (0 <? 2 ^ Z.of_nat 0) with true by reflexivity. change (2 ^ Z.of_nat 0 / 2) with 0. cbn [seq map Nat.sub]. f_equal.
    + f_equal. rewrite Z.mul_1_r. reflexivity.
    + destruct fuel; reflexivity.
  - assert (P : 0 < 2 ^ Z.of_nat (S a)) by (apply Z.pow_pos_nonneg; lia). rewrite (proj2 (Z.ltb_lt _ _) P).
    change (seq 0 (S (S a))) with (0%nat :: seq 1 (S a)). cbn [map]. f_equal; [change (2 ^ Z.of_nat 0) with 1; rewrite Z.mul_1_r; reflexivity|].
    replace (2 ^ Z.of_nat (S a) / 2) with (2 ^ Z.of_nat a).
    2:{ rewrite Nat2Z.inj_succ, Z.pow_succ_r by lia. rewrite Z.mul_comm, Z.div_mul by lia. reflexivity. }
    rewrite IH by lia. rewrite <- seq_shift, map_map. apply map_ext. intro j. cbn [Nat.sub]. f_equal.
    rewrite Nat2Z.inj_succ, Z.pow_succ_r by lia. ring.
Qed.
Lemma down_steps_eq k : forall a fuel j, (a < fuel)%nat -> (j + a = k)%nat ->
  down_steps fuel (2 ^ Z.of_nat j) (2 ^ Z.of_nat a) (2 ^ Z.of_nat k) = map (fun i => (2 ^ Z.of_nat (j + i), 2 ^ Z.of_nat (a - 1 - i))) (seq 0 a).
Proof.
  induction a as [|a IH]; intros fuel j F E; (destruct fuel as [|fuel]; [lia|]); cbn [down_steps].
  - replace j with k by lia. rewrite Z.ltb_irrefl. reflexivity.
  - assert (P : 2 ^ Z.of_nat j < 2 ^ Z.of_nat k) by (apply Z.pow_lt_mono_r; lia). rewrite (proj2 (Z.ltb_lt _ _) P).
    replace (2 ^ Z.of_nat (S a) / 2) with (2 ^ Z.of_nat a).
    2:{ rewrite Nat2Z.inj_succ, Z.pow_succ_r by lia. rewrite Z.mul_comm, Z.div_mul by lia. reflexivity. }
    replace (2 ^ Z.of_nat j * 2) with (2 ^ Z.of_nat (S j)) by (rewrite Nat2Z.inj_succ, Z.pow_succ_r by lia; ring).
    rewrite IH by lia. cbn [seq map]. f_equal.
    + f_equal; f_equal; lia.
    + rewrite <- seq_shift, map_map. apply map_ext. intro i. f_equal; f_equal; lia.
Qed.
Lemma invocations_pow k : invocations (2 ^ Z.of_nat (S k)) = 2 ^ Z.of_nat k.
Proof.
  unfold invocations. rewrite Nat2Z.inj_succ, Z.pow_succ_r by lia. replace (2 * 2 ^ Z.of_nat k + 1) with (1 + 2 ^ Z.of_nat k * 2) by ring.
  rewrite Z.div_add by lia. reflexivity.
Qed.
Lemma bits_pow k : bits (2 ^ Z.of_nat k) = S (S k).
Proof. unfold bits. rewrite Z.log2_pow2 by lia. lia. Qed.
Lemma scan_eq k row : scan (2 ^ Z.of_nat (S k)) row =
  load row :: map (fun j => up (2 ^ Z.of_nat (k - j), 2 ^ Z.of_nat j)) (seq 0 k) ++ [fun t => up (1, 2 ^ Z.of_nat k) t ++ clear (2 ^ Z.of_nat (S k)) t] ++
  map (fun i => down (2 ^ Z.of_nat i, 2 ^ Z.of_nat (k - i))) (seq 0 (S k)).
Proof.
  unfold scan. cbv zeta. rewrite invocations_pow, bits_pow, up_steps_eq by lia. f_equal. rewrite map_length, seq_length.
  pose proof (down_steps_eq (S k) (S k) (S (S (S k))) 0%nat ltac:(lia) ltac:(lia)) as DE. change (2 ^ Z.of_nat 0) with 1 in DE. rewrite DE, map_map.
  rewrite seq_S, map_app. cbn [map]. rewrite removelast_last, last_last, map_map.
  f_equal; [|f_equal].
  - apply map_ext. intro j. rewrite Z.mul_1_l. reflexivity.
  - f_equal. cbn [Nat.add]. rewrite Nat.sub_diag, Z.mul_1_l. reflexivity.
  - rewrite <- seq_S. apply map_ext. intro i. do 2 f_equal. f_equal. f_equal. lia.
Qed.

Lemma pow_S j : 2 ^ Z.of_nat (S j) = 2 * 2 ^ Z.of_nat j.
Proof. rewrite Nat2Z.inj_succ, Z.pow_succ_r by lia. reflexivity. Qed.
Lemma pow_pos j : 0 < 2 ^ Z.of_nat j.
Proof. apply Z.pow_pos_nonneg; lia. Qed.
Lemma pow_split k j : (j <= k)%nat -> 2 ^ Z.of_nat k = 2 ^ Z.of_nat (k - j) * 2 ^ Z.of_nat j.
Proof. intro L. rewrite <- Z.pow_add_r by lia. f_equal. lia. Qed.

Section Scan.
Variables (k : nat) (row : Z -> Z).
Let n : Z := 2 ^ Z.of_nat (S k).
Let N : nat := Z.to_nat (invocations n).
Lemma N_eq : Z.of_nat N = 2 ^ Z.of_nat k.
Proof. unfold N, n. rewrite invocations_pow. pose proof (pow_pos k). lia. Qed.
Lemma n_eq : n = 2 * 2 ^ Z.of_nat k.
Proof. unfold n. apply pow_S. Qed.

(* partial sums over blocks of 2^j *)
Definition ups (j : nat) (m : memory) : Prop := forall i v, 0 <= i < n -> (v <= j)%nat -> (2 ^ Z.of_nat v | i + 1) -> v = j \/ ~ (2 ^ Z.of_nat (S v) | i + 1) ->
  m (tmp i) = IZR (sum_between row (i + 1 - 2 ^ Z.of_nat v) (i + 1)).
Definition downs (j : nat) (m : memory) : Prop :=
  (forall i, 0 <= i < n -> (2 ^ Z.of_nat j | i + 1) -> m (tmp i) = IZR (sum_before row (i + 1 - 2 ^ Z.of_nat j))) /\
  (forall i v, 0 <= i < n -> (v < j)%nat -> (2 ^ Z.of_nat v | i + 1) -> ~ (2 ^ Z.of_nat (S v) | i + 1) -> m (tmp i) = IZR (sum_between row (i + 1 - 2 ^ Z.of_nat v) (i + 1))).

Lemma tmp_inj i j : tmp i = tmp j -> i = j.
Proof. unfold tmp. intro E. now injection E. Qed.

Lemma load_free : race_free N (load row).
Proof. intros t u a _ _ D H H'. cbn in H, H'. unfold tmp in *. destruct H as [<-|[<-|[]]], H' as [E|[E|[]]]; apply tmp_inj in E; lia. Qed.
Lemma after_load m m' : phase N (load row) m m' -> ups 0 m'.
Proof.
  intros P i v Hi Hv _ _. destruct (phase_free _ _ _ _ load_free P) as (W & _). replace v with 0%nat by lia. change (2 ^ Z.of_nat 0) with 1.
  replace (i + 1 - 1) with i by lia. rewrite between_one.
  pose proof N_eq as NE. pose proof n_eq as E. pose proof (Z.div_mod i 2 ltac:(lia)) as D. pose proof (Z.mod_pos_bound i 2 ltac:(lia)) as B.
  assert (T : Z.of_nat (Z.to_nat (i / 2)) = i / 2) by (apply Z2Nat.id, Z.div_pos; lia).
  assert (L : (Z.to_nat (i / 2) < N)%nat) by (apply Nat2Z.inj_lt; rewrite T; lia).
  destruct (Z.eq_dec (i mod 2) 0) as [Z0|Z1].
  - assert (X : Z.of_nat (Z.to_nat (i / 2)) * 2 = i) by lia.
    rewrite (W _ (tmp i) L). 2:{ cbn. left. f_equal. exact X. }
    cbn [load alone fold_left exec fst snd]. rewrite set_other by (intro Q; apply tmp_inj in Q; lia). rewrite X, set_same. reflexivity.
  - assert (X : Z.of_nat (Z.to_nat (i / 2)) * 2 + 1 = i) by lia.
    rewrite (W _ (tmp i) L). 2:{ cbn. right. left. f_equal. exact X. }
    cbn [load alone fold_left exec fst snd]. rewrite X, set_same. reflexivity.
Qed.

Lemma lower_upper o t u : 0 < o -> lower o t <> upper o u.
Proof. unfold lower, upper. intros O E. assert (o * (Z.of_nat t * 2 + 1) = o * (Z.of_nat u * 2 + 2)) by lia. apply Z.mul_reg_l in H; lia. Qed.
Lemma lower_inj o t u : 0 < o -> lower o t = lower o u -> t = u.
Proof. unfold lower. intros O E. assert (o * (Z.of_nat t * 2 + 1) = o * (Z.of_nat u * 2 + 1)) by lia. apply Z.mul_reg_l in H; lia. Qed.
Lemma upper_inj o t u : 0 < o -> upper o t = upper o u -> t = u.
Proof. unfold upper. intros O E. assert (o * (Z.of_nat t * 2 + 2) = o * (Z.of_nat u * 2 + 2)) by lia. apply Z.mul_reg_l in H; lia. Qed.

Lemma up_free d o : 0 < o -> race_free N (up (d, o)).
Proof.
  intros O t u a _ _ D H H'. unfold up in *. cbn [fst snd] in *.
  destruct (Z.of_nat t <? d); [|destruct H]. destruct (Z.of_nat u <? d); [|destruct H'].
  cbn in H, H'. destruct H as [<-|[]]. destruct H' as [E|[E|[E|[]]]]; apply tmp_inj in E.
  - apply D. symmetry. apply (upper_inj o); assumption.
  - exact (lower_upper o u t O E).
  - apply D. symmetry. apply (upper_inj o); assumption.
Qed.
Lemma up_written d o t : 0 < o -> Z.of_nat t < d -> forall m, fst (alone (up (d, o) t) m 0) (tmp (upper o t)) = (m (tmp (upper o t)) + m (tmp (lower o t)))%R.
Proof. intros O L m. unfold up. cbn [fst snd]. rewrite (proj2 (Z.ltb_lt _ _) L). cbn [alone fold_left exec fst snd]. now rewrite set_same. Qed.
Lemma divides_index j i : (j <= k)%nat -> 0 <= i < n -> (2 ^ Z.of_nat (S j) | i + 1) -> exists t, Z.of_nat t < 2 ^ Z.of_nat (k - j) /\ i = upper (2 ^ Z.of_nat j) t.
Proof.
  intros J I (c & E). rewrite pow_S in E. pose proof n_eq as NE. rewrite (pow_split k j J) in NE. pose proof (pow_pos j) as P. pose proof (pow_pos (k - j)) as P'.
  exists (Z.to_nat (c - 1)). assert (C : 1 <= c) by nia. split.
  - rewrite Z2Nat.id by lia. nia.
  - unfold upper. rewrite Z2Nat.id by lia. nia.
Qed.
Lemma upper_divides j t : (2 ^ Z.of_nat (S j) | upper (2 ^ Z.of_nat j) t + 1).
Proof. exists (Z.of_nat t + 1). rewrite pow_S. unfold upper. ring. Qed.
Lemma upper_bounds j t : (j <= k)%nat -> Z.of_nat t < 2 ^ Z.of_nat (k - j) -> 0 <= upper (2 ^ Z.of_nat j) t < n.
Proof. intros J T. pose proof n_eq as NE. rewrite (pow_split k j J) in NE. pose proof (pow_pos j) as P. unfold upper. nia. Qed.
Lemma lower_bounds j t : (j <= k)%nat -> Z.of_nat t < 2 ^ Z.of_nat (k - j) -> 0 <= lower (2 ^ Z.of_nat j) t < n.
Proof. intros J T. pose proof (upper_bounds j t J T). unfold upper, lower in *. pose proof (pow_pos j) as P. nia. Qed.
Lemma lower_divides j t : (2 ^ Z.of_nat j | lower (2 ^ Z.of_nat j) t + 1).
Proof. exists (Z.of_nat t * 2 + 1). unfold lower. ring. Qed.
Lemma lower_exact j t : ~ (2 ^ Z.of_nat (S j) | lower (2 ^ Z.of_nat j) t + 1).
Proof.
  intros (c & E). rewrite pow_S in E. unfold lower in E. pose proof (pow_pos j) as P.
  assert (2 ^ Z.of_nat j * (Z.of_nat t * 2 + 1) = 2 ^ Z.of_nat j * (2 * c)) by lia. apply Z.mul_reg_l in H; lia.
Qed.
Lemma active j t : (j <= k)%nat -> Z.of_nat t < 2 ^ Z.of_nat (k - j) -> (t < N)%nat.
Proof.
  intros J T. apply Nat2Z.inj_lt. rewrite N_eq. eapply Z.lt_le_trans; [exact T|]. apply Z.pow_le_mono_r; lia.
Qed.
Lemma divides_le v w i : (v <= w)%nat -> (2 ^ Z.of_nat w | i) -> (2 ^ Z.of_nat v | i).
Proof. intros L D. eapply Z.divide_trans; [|exact D]. rewrite (pow_split w v L). exists (2 ^ Z.of_nat (w - v)). reflexivity. Qed.

Lemma up_step j m m' : (j <= k)%nat -> phase N (up (2 ^ Z.of_nat (k - j), 2 ^ Z.of_nat j)) m m' -> ups j m -> ups (S j) m'.
Proof.
  intros J P U i v Hi Hv D X. pose proof (pow_pos j) as O. destruct (phase_free _ _ _ _ (up_free _ _ O) P) as (W & K).
  destruct (Nat.eq_dec v (S j)) as [->|V].
  - destruct (divides_index j i J Hi D) as (t & T & E).
    assert (IN : In (tmp i) (writes (up (2 ^ Z.of_nat (k - j), 2 ^ Z.of_nat j) t))).
    { unfold up. cbn [fst snd]. rewrite (proj2 (Z.ltb_lt _ _) T). rewrite E. cbn. left. reflexivity. }
    rewrite (W t (tmp i) (active j t J T) IN), E, up_written by assumption.
    rewrite (U (upper (2 ^ Z.of_nat j) t) j), (U (lower (2 ^ Z.of_nat j) t) j); try lia.
    + rewrite <- plus_IZR. f_equal. rewrite pow_S.
      replace (lower (2 ^ Z.of_nat j) t + 1) with (upper (2 ^ Z.of_nat j) t + 1 - 2 ^ Z.of_nat j) by (unfold upper, lower; ring).
      replace (upper (2 ^ Z.of_nat j) t + 1 - 2 ^ Z.of_nat j - 2 ^ Z.of_nat j) with (upper (2 ^ Z.of_nat j) t + 1 - 2 * 2 ^ Z.of_nat j) by ring.
      rewrite (between_add row (upper (2 ^ Z.of_nat j) t + 1 - 2 * 2 ^ Z.of_nat j) (upper (2 ^ Z.of_nat j) t + 1 - 2 ^ Z.of_nat j) (upper (2 ^ Z.of_nat j) t + 1)) by lia. lia.
    + now apply lower_bounds.
    + apply lower_divides.
    + apply (divides_le j (S j)); [lia|apply upper_divides].
  - assert (V' : (v <= j)%nat) by lia. destruct X as [X|X]; [lia|].
    rewrite K.
    + apply U; try assumption. right. exact X.
    + intros t _ H. unfold up in H. cbn [fst snd] in H. destruct (Z.of_nat t <? _); [|destruct H]. cbn in H. destruct H as [E|[]]. apply tmp_inj in E.
      apply X. apply (divides_le (S v) (S j)); [lia|]. rewrite <- E. apply upper_divides.
Qed.

Lemma last_free : race_free N (fun t => up (1, 2 ^ Z.of_nat k) t ++ clear n t).
Proof.
  intros t u a _ _ D H H'. unfold up, clear in *. cbn [fst snd] in *.
  destruct t as [|t].
  - destruct u as [|u]; [lia|]. replace (Z.of_nat (S u) <? 1) with false in H' by (symmetry; apply Z.ltb_ge; lia). destruct H'.
  - replace (Z.of_nat (S t) <? 1) with false in H by (symmetry; apply Z.ltb_ge; lia). destruct H.
Qed.
Lemma top : upper (2 ^ Z.of_nat k) 0 = n - 1.
Proof. unfold upper. rewrite n_eq. change (Z.of_nat 0) with 0. ring. Qed.
Lemma last_step m m' : phase N (fun t => up (1, 2 ^ Z.of_nat k) t ++ clear n t) m m' -> ups k m -> downs (S k) m'.
Proof.
  intros P U. destruct (phase_free _ _ _ _ last_free P) as (W & K). pose proof (pow_pos k) as O. pose proof n_eq as NE.
  assert (A0 : forall i, 0 <= i < n -> i <> n - 1 -> m' (tmp i) = m (tmp i)).
  { intros i I X. apply K. intros t _ H. unfold up, clear in H. cbn [fst snd] in H. destruct t as [|t].
    - cbn in H. pose proof top as T. destruct H as [E|[E|[]]]; apply tmp_inj in E; lia.
    - replace (Z.of_nat (S t) <? 1) with false in H by (symmetry; apply Z.ltb_ge; lia). destruct H. }
  split.
  - intros i I D. assert (E : i = n - 1). { apply Z.divide_pos_le in D; [|lia]. fold n in D. lia. }
    assert (L : (0 < N)%nat). { pose proof N_eq. lia. }
    rewrite (W 0%nat (tmp i) L). 2:{ rewrite E. unfold up, clear. cbn. right. left. reflexivity. }
    unfold up, clear. cbn [fst snd Z.of_nat Nat.eqb app]. replace (0 <? 1) with true by reflexivity. cbn [app alone fold_left exec fst snd]. rewrite E, set_same.
    assert (Q : n - 1 + 1 - 2 ^ Z.of_nat (S k) = 0) by (fold n; lia). cbn [Z.of_nat] in Q. rewrite Q. unfold sum_before. rewrite between_nil. reflexivity.
  - intros i v I V D X. rewrite A0.
    + apply U; try assumption; [lia|]. right. exact X.
    + exact I.
    + intros ->. apply X. replace (n - 1 + 1) with n by lia. unfold n. apply (divides_le (S v) (S k)); [lia|]. apply Z.divide_refl.
Qed.

Lemma down_free d o : 0 < o -> race_free N (down (d, o)).
Proof.
  intros O t u a _ _ D H H'. unfold down in *. cbn [fst snd] in *.
  destruct (Z.of_nat t <? d); [|destruct H]. destruct (Z.of_nat u <? d); [|destruct H'].
  cbn in H, H'. assert (SW : forall i, swapsum u = tmp i -> False) by (unfold swapsum, tmp; intros i E; injection E; lia).
  assert (SW' : forall i, tmp i = swapsum t -> False) by (unfold swapsum, tmp; intros i E; injection E; lia).
  assert (SS : swapsum u = swapsum t -> False) by (unfold swapsum; intro E; injection E; lia).
  destruct H as [<-|[<-|[<-|[]]]]; repeat (destruct H' as [H'|H']; [try (now apply SS in H'); try (now apply SW in H'); try (now apply SW' in H');
    apply tmp_inj in H'; try (now apply lower_upper in H'); try (symmetry in H'; now apply lower_upper in H'); try (apply upper_inj in H'; lia); try (apply lower_inj in H'; lia)|]); destruct H'.
Qed.
Lemma down_written d o t m : 0 < o -> Z.of_nat t < d ->
  fst (alone (down (d, o) t) m 0) (tmp (lower o t)) = m (tmp (upper o t)) /\ fst (alone (down (d, o) t) m 0) (tmp (upper o t)) = (m (tmp (upper o t)) + m (tmp (lower o t)))%R.
Proof.
  intros O L. unfold down. cbn [fst snd]. rewrite (proj2 (Z.ltb_lt _ _) L). cbn [alone fold_left exec fst snd].
  assert (A1 : tmp (lower o t) <> tmp (upper o t)) by (intro E; apply tmp_inj in E; now apply lower_upper in E).
  assert (A2 : tmp (upper o t) <> swapsum t) by (unfold tmp, swapsum; intro E; injection E; lia).
  assert (A3 : swapsum t <> tmp (lower o t)) by (unfold tmp, swapsum; intro E; injection E; lia).
  assert (A4 : swapsum t <> tmp (upper o t)) by (unfold tmp, swapsum; intro E; injection E; lia).
  split.
  - rewrite set_other by exact A1. rewrite set_same, set_other by exact A2. reflexivity.
  - rewrite set_same. rewrite (set_other _ (tmp (lower o t))) by exact A3. rewrite set_same. rewrite set_other by exact A2. reflexivity.
Qed.
Lemma down_step j m m' : (j <= k)%nat -> phase N (down (2 ^ Z.of_nat (k - j), 2 ^ Z.of_nat j)) m m' -> downs (S j) m -> downs j m'.
Proof.
  intros J P (Da & Db). pose proof (pow_pos j) as O. destruct (phase_free _ _ _ _ (down_free _ _ O) P) as (W & K).
  assert (INW : forall t, Z.of_nat t < 2 ^ Z.of_nat (k - j) -> In (tmp (lower (2 ^ Z.of_nat j) t)) (writes (down (2 ^ Z.of_nat (k - j), 2 ^ Z.of_nat j) t)) /\ In (tmp (upper (2 ^ Z.of_nat j) t)) (writes (down (2 ^ Z.of_nat (k - j), 2 ^ Z.of_nat j) t))).
  { intros t T. unfold down. cbn [fst snd]. rewrite (proj2 (Z.ltb_lt _ _) T). cbn. tauto. }
  assert (VU : forall t, Z.of_nat t < 2 ^ Z.of_nat (k - j) -> m (tmp (upper (2 ^ Z.of_nat j) t)) = IZR (sum_before row (lower (2 ^ Z.of_nat j) t + 1 - 2 ^ Z.of_nat j))).
  { intros t T. rewrite Da; [|apply upper_bounds; assumption|apply upper_divides]. do 2 f_equal. rewrite pow_S. unfold upper, lower. ring. }
  assert (VL : forall t, Z.of_nat t < 2 ^ Z.of_nat (k - j) -> m (tmp (lower (2 ^ Z.of_nat j) t)) = IZR (sum_between row (lower (2 ^ Z.of_nat j) t + 1 - 2 ^ Z.of_nat j) (lower (2 ^ Z.of_nat j) t + 1))).
  { intros t T. apply Db; [apply lower_bounds; assumption|lia|apply lower_divides|apply lower_exact]. }
  split.
  - intros i I (c & E). destruct (Z.Even_or_Odd c) as [(h & H)|(h & H)].
    + assert (D : (2 ^ Z.of_nat (S j) | i + 1)) by (exists h; rewrite pow_S, E, H; ring).
      destruct (divides_index j i J I D) as (t & T & Ei). rewrite Ei. rewrite (W t _ (active j t J T) (proj2 (INW t T))).
      rewrite (proj2 (down_written _ _ t m O T)), (VU t T), (VL t T), <- plus_IZR. f_equal. unfold sum_before.
      rewrite <- between_add. 2:{ unfold lower. nia. } 2: lia. f_equal. unfold upper, lower. ring.
    + pose proof n_eq as NE. rewrite (pow_split k j J) in NE. pose proof (pow_pos (k - j)) as P'.
      assert (HH : 0 <= h) by nia. assert (T : Z.of_nat (Z.to_nat h) < 2 ^ Z.of_nat (k - j)) by (rewrite Z2Nat.id by lia; nia).
      assert (Ei : i = lower (2 ^ Z.of_nat j) (Z.to_nat h)) by (unfold lower; rewrite Z2Nat.id by lia; nia).
      rewrite Ei. rewrite (W _ _ (active j _ J T) (proj1 (INW _ T))). rewrite (proj1 (down_written _ _ _ m O T)). apply VU. exact T.
  - intros i v I V D X. rewrite K.
    + apply Db; try assumption. lia.
    + intros t _ H. unfold down in H. cbn [fst snd] in H. destruct (Z.of_nat t <? _); [|destruct H]. cbn in H.
      destruct H as [Q|[Q|[Q|[]]]]; [unfold swapsum, tmp in Q; injection Q; lia| |]; apply tmp_inj in Q; apply X; rewrite <- Q.
      * apply (divides_le (S v) j); [lia|apply lower_divides].
      * apply (divides_le (S v) (S j)); [lia|apply upper_divides].
Qed.

Lemma ups_run : forall a b m m', (a + b <= k)%nat -> kernel N (map (fun j => up (2 ^ Z.of_nat (k - j), 2 ^ Z.of_nat j)) (seq a b)) m m' -> ups a m -> ups (a + b) m'.
Proof.
  intros a b. revert a. induction b as [|b IH]; intros a m m' L H U; cbn [seq map] in H.
  - apply kernel_nil in H. subst m'. rewrite Nat.add_0_r. exact U.
  - apply kernel_cons in H. destruct H as (m1 & P & H). replace (a + S b)%nat with (S a + b)%nat by lia.
    apply (IH (S a) m1 m'); [lia|exact H|]. apply (up_step a m m1); [lia|exact P|exact U].
Qed.
Lemma downs_run : forall a b m m', (b <= k)%nat -> (a + b = k)%nat -> kernel N (map (fun i => down (2 ^ Z.of_nat i, 2 ^ Z.of_nat (k - i))) (seq a (S b))) m m' -> downs (S b) m -> downs 0 m'.
Proof.
  intros a b. revert a. induction b as [|b IH]; intros a m m' L E H U.
  - cbn [seq map] in H. apply kernel_one in H. replace (k - a)%nat with 0%nat in H by lia. replace a with (k - 0)%nat in H by lia. apply (down_step 0 m m'); [lia|exact H|exact U].
  - change (seq a (S (S b))) with (a :: seq (S a) (S b)) in H. cbn [map] in H. apply kernel_cons in H. destruct H as (m1 & P & H).
    apply (IH (S a) m1 m'); [lia|lia|exact H|].
    replace (k - a)%nat with (S b) in P by lia. replace a with (k - S b)%nat in P by lia. apply (down_step (S b) m m1); [lia|exact P|exact U].
Qed.
Lemma scan_sums m m' : kernel N (scan n row) m m' -> forall i, 0 <= i < n -> m' (tmp i) = IZR (sum_before row i).
Proof.
  intros H i I. unfold n in H. rewrite scan_eq in H. apply kernel_cons in H. destruct H as (m1 & P & H).
  apply kernel_app in H. destruct H as (m2 & HU & H). apply kernel_app in H. destruct H as (m3 & HL & HD). apply kernel_one in HL.
  apply after_load in P. apply (ups_run 0 k) in HU; [|lia|exact P]. cbn [Nat.add] in HU. apply (last_step m2 m3) in HL; [|exact HU].
  apply (downs_run 0 k) in HD; [|lia|lia|exact HL]. destruct HD as (D & _). rewrite D.
  - do 2 f_equal. cbn. lia.
  - exact I.
  - exists (i + 1). cbn. lia.
Qed.
Lemma scan_bounds : in_bounds n (scan n row).
Proof.
  intros p t i a IN T Ii M F. unfold n in IN. rewrite scan_eq in IN. unfold n in T. rewrite invocations_pow in T. pose proof n_eq as NE. pose proof (pow_pos k) as PK.
  destruct IN as [<-|IN].
  - cbn in Ii. destruct Ii as [<-|[<-|[<-|[<-|[]]]]]; cbn in M; try contradiction; subst a; cbn; lia.
  - apply in_app_or in IN. destruct IN as [IN|IN]; [|apply in_app_or in IN; destruct IN as [IN|IN]].
    + apply in_map_iff in IN. destruct IN as (j & <- & J). apply in_seq in J. unfold up in Ii. cbn [fst snd] in Ii.
      destruct (Z.of_nat t <? _) eqn:L; [|destruct Ii]. apply Z.ltb_lt in L.
      assert (JK : (j <= k)%nat) by lia. pose proof (upper_bounds j t JK L). pose proof (lower_bounds j t JK L).
      cbn in Ii. destruct Ii as [<-|[<-|[<-|[]]]]; cbn in M; subst a; cbn; assumption.
    + destruct IN as [<-|[]]. unfold up, clear in Ii. cbn [fst snd] in Ii. destruct t as [|t].
      * cbn [Z.of_nat Nat.eqb] in Ii. replace (0 <? 1) with true in Ii by reflexivity. fold n in Ii.
        assert (JK : (k <= k)%nat) by lia. assert (L : Z.of_nat 0 < 2 ^ Z.of_nat (k - k)) by (rewrite Nat.sub_diag; cbn; lia).
        pose proof (upper_bounds k 0 JK L). pose proof (lower_bounds k 0 JK L).
        cbn [app In] in Ii. destruct Ii as [<-|[<-|[<-|[<-|[<-|[]]]]]]; cbn in M; try contradiction; subst a; cbn [tmp snd]; lia.
      * replace (Z.of_nat (S t) <? 1) with false in Ii by (symmetry; apply Z.ltb_ge; lia). destruct Ii.
    + apply in_map_iff in IN. destruct IN as (j & <- & J). apply in_seq in J. unfold down in Ii. cbn [fst snd] in Ii.
      destruct (Z.of_nat t <? _) eqn:L; [|destruct Ii]. apply Z.ltb_lt in L.
      assert (JK : (k - j <= k)%nat) by lia. assert (L' : Z.of_nat t < 2 ^ Z.of_nat (k - (k - j))) by (replace (k - (k - j))%nat with j by lia; exact L).
      pose proof (upper_bounds (k - j) t JK L'). pose proof (lower_bounds (k - j) t JK L').
      cbn in Ii. destruct Ii as [<-|[<-|[<-|[<-|[<-|[<-|[]]]]]]]; cbn in M; subst a; try (cbn in F; lia); cbn; assumption.
Qed.
End Scan.

(* stores to an image *)
Lemma store_cols im x y v : cols (image_store im x y v) = cols im.
Proof. unfold image_store. now destruct (within im x y). Qed.
Lemma store_rows im x y v : rows (image_store im x y v) = rows im.
Proof. unfold image_store. now destruct (within im x y). Qed.
Lemma within_size im im' x y : cols im' = cols im -> rows im' = rows im -> within im' x y = within im x y.
Proof. unfold within. now intros -> ->. Qed.
Lemma within_spec im x y : within im x y = true <-> 0 <= x < cols im /\ 0 <= y < rows im.
Proof. unfold within. rewrite !andb_true_iff, !Z.leb_le, !Z.ltb_lt. lia. Qed.
Lemma store_texel im x y v x' y' : texel (image_store im x y v) x' y' = if within im x y && (x' =? x) && (y' =? y) then v else texel im x' y'.
Proof. unfold image_store. destruct (within im x y); reflexivity. Qed.
Lemma stores (g : Z * Z -> Z -> Z) : forall l im, NoDup l ->
  let out := fold_left (fun im q => image_store im (fst q) (snd q) (g q (image_load im (fst q) (snd q)))) l im in
  cols out = cols im /\ rows out = rows im /\
  (forall x y, In (x, y) l -> within im x y = true -> texel out x y = g (x, y) (texel im x y)) /\ (forall x y, ~ In (x, y) l -> texel out x y = texel im x y).
Proof.
  induction l as [|q l IH]; intros im ND; cbn [fold_left].
  - cbn. repeat split; try tauto.
  - inversion ND as [|? ? NI ND']; subst. set (im1 := image_store im (fst q) (snd q) (g q (image_load im (fst q) (snd q)))).
    destruct (IH im1 ND') as (C & R & I & O). unfold im1 in C, R. rewrite store_cols in C. rewrite store_rows in R. repeat split; try assumption.
    + intros x y [E|H] W.
      * rewrite O by (rewrite <- E; exact NI). unfold im1. rewrite store_texel. subst q. cbn [fst snd]. rewrite W, !Z.eqb_refl. cbn [andb]. unfold image_load. rewrite W. reflexivity.
      * rewrite I; [|exact H|]. 2:{ rewrite <- W. apply within_size; [apply store_cols|apply store_rows]. }
        f_equal. unfold im1. rewrite store_texel.
        destruct (within im (fst q) (snd q) && (x =? fst q) && (y =? snd q)) eqn:E; [|reflexivity].
        apply andb_true_iff in E. destruct E as (E & E2). apply andb_true_iff in E. destruct E as (_ & E1). apply Z.eqb_eq in E1, E2. subst. destruct q. contradiction.
    + intros x y N. rewrite O by (intro H; apply N; right; exact H). unfold im1. rewrite store_texel.
      destruct (within im (fst q) (snd q) && (x =? fst q) && (y =? snd q)) eqn:E; [|reflexivity].
      apply andb_true_iff in E. destruct E as (E & E2). apply andb_true_iff in E. destruct E as (_ & E1). apply Z.eqb_eq in E1, E2. subst. exfalso. apply N. left. destruct q; reflexivity.
Qed.

Lemma transposed n im before after : 0 < n -> 0 <= cols im -> 0 <= rows im -> cols before = rows im -> rows before = cols im -> transpose n im before after ->
  cols after = rows im /\ rows after = cols im /\ forall x y, 0 <= x < cols im -> 0 <= y < rows im -> texel after y x = texel im x y.
Proof.
  intros N C0 R0 CB RB (order & P & ->).
  assert (ND : NoDup order) by (apply (Permutation_NoDup (Permutation_sym P)), nodup_grid).
  destruct (stores (fun q _ => image_load im (snd q) (fst q)) order before ND) as (C & R & I & _).
  split; [rewrite C; exact CB|]. split; [rewrite R; exact RB|]. intros x y X Y.
  rewrite I.
  - cbn [fst snd]. unfold image_load. rewrite (proj2 (within_spec im x y)) by tauto. reflexivity.
  - apply (Permutation_in _ (Permutation_sym P)). apply in_grid.
    pose proof (Z.div_mod (rows im + n - 1) n ltac:(lia)). pose proof (Z.mod_pos_bound (rows im + n - 1) n N).
    pose proof (Z.div_mod (cols im + n - 1) n ltac:(lia)). pose proof (Z.mod_pos_bound (cols im + n - 1) n N). cbn [fst snd]. lia.
  - apply within_spec. lia.
Qed.

(* sums of blocks *)
Lemma rows_sums k groups binary im out x y : prefix_sum (2 ^ Z.of_nat (S k)) groups binary im out -> 0 <= x < cols im -> x < groups * 2 ^ Z.of_nat (S k) -> 0 <= y < rows im ->
  texel out x y = sum_between (fun c => if binary then texel im c y mod 2 else texel im c y) (x / 2 ^ Z.of_nat (S k) * 2 ^ Z.of_nat (S k)) x.
Proof.
  intros (C & R & H) X G Y. set (n := 2 ^ Z.of_nat (S k)) in *. assert (N : 0 < n) by apply pow_pos.
  pose proof (Z.div_mod x n ltac:(lia)) as D. pose proof (Z.mod_pos_bound x n N) as B.
  assert (Q : 0 <= x / n) by (apply Z.div_pos; lia).
  destruct (H (x / n) y) as (m & m' & K & T); [split; [exact Q|apply Z.div_lt_upper_bound; lia]|exact Y|].
  assert (I : invocations n * 2 = n) by (unfold n; rewrite invocations_pow, pow_S; ring).
  assert (E : x / n * n + x mod n = x) by lia.
  specialize (T (x mod n)). rewrite E in T. rewrite I in T. specialize (T B (proj2 X)).
  pose proof (scan_sums k _ m m' K (x mod n) B) as S. fold n in S. rewrite S in T. apply eq_IZR in T. rewrite T.
  unfold sum_before, sum_between. replace (x mod n - 0) with (x - x / n * n) by lia. f_equal. unfold zrange, zseq. rewrite !map_map.
  apply map_ext_in. intros i L. apply in_seq in L. cbv zeta. unfold image_load.
  rewrite (proj2 (within_spec im (x / n * n + (0 + Z.of_nat i)) y)).
  - replace (x / n * n + (0 + Z.of_nat i)) with (x / n * n + Z.of_nat i) by lia. reflexivity.
  - split; [|exact Y]. split; [nia|lia].
Qed.
Lemma scan_exists k groups binary im : exists out, prefix_sum (2 ^ Z.of_nat (S k)) groups binary im out.
Proof.
  set (n := 2 ^ Z.of_nat (S k)). assert (N : 0 < n) by apply pow_pos.
  exists {| cols := cols im; rows := rows im; texel := fun x y => sum_before (fun i => let v := image_load im (x / n * n + i) y in if binary then v mod 2 else v) (x mod n) |}.
  split; [reflexivity|]. split; [reflexivity|]. intros b y B Y.
  destruct (kernel_exists (Z.to_nat (invocations n)) (scan n (fun i => let v := image_load im (b * n + i) y in if binary then v mod 2 else v)) (fun _ => 0%R)) as (m' & K).
  exists (fun _ => 0%R), m'. split; [exact K|]. intros i I _. assert (E : invocations n * 2 = n) by (unfold n; rewrite invocations_pow, pow_S; ring). rewrite E in I.
  cbn [texel]. rewrite (Z.add_comm (b * n)), Z.div_add, Z.mod_add, Z.div_small, Z.mod_small by lia. rewrite Z.add_0_l.
  symmetry. exact (scan_sums k _ _ _ K i I).
Qed.

(* merging *)
Lemma merge_block_spec n y im b : 0 < n -> 0 <= y < rows im -> 1 <= b -> b * n - 1 < cols im ->
  let out := merge_block n y im b in
  cols out = cols im /\ rows out = rows im /\
  (forall x, b * n <= x < b * n + n -> x < cols im -> texel out x y = texel im x y + texel im (b * n - 1) y) /\
  (forall x y', y' <> y \/ ~ (b * n <= x < b * n + n) -> texel out x y' = texel im x y').
Proof.
  intros N Y B L. unfold merge_block. cbv zeta.
  assert (S0 : image_load im (b * n - 1) y = texel im (b * n - 1) y) by (unfold image_load; rewrite (proj2 (within_spec _ _ _)); [reflexivity|nia]). rewrite S0. set (s := texel im (b * n - 1) y).
  assert (E : fold_left (fun im x => image_store im (b * n + x) y (image_load im (b * n + x) y + s)) (zrange 0 n) im =
    fold_left (fun im q => image_store im (fst q) (snd q) ((fun _ v => v + s) q (image_load im (fst q) (snd q)))) (map (fun x => (b * n + x, y)) (zrange 0 n)) im).
  { generalize im. induction (zrange 0 n) as [|x l IH]; intro i0; [reflexivity|]. cbn [fold_left map]. apply IH. }
  rewrite E. assert (ND : NoDup (map (fun x => (b * n + x, y)) (zrange 0 n))).
  { apply FinFun.Injective_map_NoDup; [|apply nodup_zseq]. intros u v Q. apply pair_equal_spec in Q. lia. }
  destruct (stores (fun _ v => v + s) _ im ND) as (C & R & I & O). split; [exact C|]. split; [exact R|]. split.
  - intros x X XC. apply (I x y); [|apply within_spec; nia]. apply in_map_iff. exists (x - b * n). split; [f_equal; lia|]. apply in_zrange. lia.
  - intros x y' D. apply O. intro H. apply in_map_iff in H. destruct H as (u & Q & U). apply pair_equal_spec in Q. apply in_zrange in U. lia.
Qed.
Lemma block_ends_S n row b : 0 <= b -> block_ends n row (b + 1) = block_ends n row b + row ((b + 1) * n - 1).
Proof.
  intro B. unfold block_ends, zrange. replace (Z.to_nat (b + 1)) with (Z.to_nat b + 1)%nat by lia. rewrite zseq_app, map_app, fold_add_app. f_equal.
  unfold zseq. cbn [seq map fold_right Z.of_nat]. rewrite Z2Nat.id by lia. rewrite !Z.add_0_r. do 2 f_equal. ring.
Qed.
Lemma merge_blocks n y im : 0 < n -> 0 <= y < rows im -> forall c, 0 <= c -> c * n - 1 < cols im ->
  let out := fold_left (merge_block n y) (zrange 1 c) im in
  cols out = cols im /\ rows out = rows im /\
  (forall x, 0 <= x < cols im -> texel out x y = texel im x y + (if x / n <=? c then block_ends n (fun i => texel im i y) (x / n) else 0)) /\
  (forall x y', y' <> y -> texel out x y' = texel im x y').
Proof.
  intros N Y c C0. pattern c. apply natlike_ind; [|clear c C0|exact C0].
  - intros _. cbn. repeat split; try tauto. intros x X. destruct (Z.leb_spec (x / n) 0) as [L|L]; [|lia].
    assert (0 <= x / n) by (apply Z.div_pos; lia). replace (x / n) with 0 by lia. cbn. lia.
  - intros c C IH L. rewrite <- Z.add_1_r in *. destruct IH as (IC & IR & IT & IO); [nia|]. cbv zeta.
    unfold zrange. replace (Z.to_nat (c + 1)) with (Z.to_nat c + 1)%nat by lia. rewrite zseq_app, fold_left_app. fold (zrange 1 c).
    set (im1 := fold_left (merge_block n y) (zrange 1 c) im) in *.
    replace (zseq (1 + Z.of_nat (Z.to_nat c)) 1) with [c + 1]. 2:{ unfold zseq. cbn [seq map Z.of_nat]. f_equal. lia. }
    cbn [fold_left]. destruct (merge_block_spec n y im1 (c + 1) N) as (SC & SR & ST & SO); try (rewrite ?IR, ?IC; lia).
    rewrite IC in *. rewrite IR in *. split; [exact SC|]. split; [exact SR|]. split.
    + intros x X. destruct (Z.eq_dec (x / n) (c + 1)) as [E|E].
      * pose proof (Z.div_mod x n ltac:(lia)) as D. pose proof (Z.mod_pos_bound x n N) as B. rewrite E in D.
        rewrite ST by nia. rewrite IT by lia. rewrite E. replace (c + 1 <=? c) with false by (symmetry; apply Z.leb_gt; lia). rewrite Z.leb_refl, Z.add_0_r. f_equal.
        rewrite IT by nia. rewrite block_ends_S by lia.
        replace (((c + 1) * n - 1) / n) with c. 2:{ replace ((c + 1) * n - 1) with (n - 1 + c * n) by ring. rewrite Z.div_add, Z.div_small by lia. lia. }
        rewrite Z.leb_refl. lia.
      * rewrite SO. 2:{ right. intro H. apply E. symmetry. apply (Z.div_unique x n (c + 1) (x - (c + 1) * n)); lia. }
        rewrite IT by exact X. f_equal. destruct (Z.leb_spec (x / n) c), (Z.leb_spec (x / n) (c + 1)); try lia; reflexivity.
    + intros x y' D. rewrite SO by (left; exact D). apply IO. exact D.
Qed.
Lemma merge_row_spec n im y : 0 < n -> 0 < cols im -> 0 <= y < rows im ->
  let out := merge_row n im y in cols out = cols im /\ rows out = rows im /\
  (forall x, 0 <= x < cols im -> texel out x y = texel im x y + block_ends n (fun i => texel im i y) (x / n)) /\ (forall x y', y' <> y -> texel out x y' = texel im x y').
Proof.
  intros N C Y. unfold merge_row, block_count. cbv zeta.
  pose proof (Z.div_mod (cols im + n - 1) n ltac:(lia)) as D. pose proof (Z.mod_pos_bound (cols im + n - 1) n N) as B. set (q := (cols im + n - 1) / n) in *.
  assert (Q : 1 <= q) by nia. destruct (merge_blocks n y im N Y (q - 1)) as (SC & SR & ST & SO); [lia|nia|].
  split; [exact SC|]. split; [exact SR|]. split; [|exact SO]. intros x X. rewrite ST by exact X.
  rewrite (proj2 (Z.leb_le (x / n) (q - 1))); [reflexivity|]. assert (x / n < q) by (apply Z.div_lt_upper_bound; nia). lia.
Qed.
Lemma merged n im out : 0 < n -> 0 < cols im -> block_merge n im out ->
  cols out = cols im /\ rows out = rows im /\ forall x y, 0 <= x < cols im -> 0 <= y < rows im -> texel out x y = texel im x y + block_ends n (fun i => texel im i y) (x / n).
Proof.
  intros N C (order & P & ->).
  assert (ND : NoDup order) by (apply (Permutation_NoDup (Permutation_sym P)), nodup_zseq).
  assert (IN : forall y, In y order -> 0 <= y < rows im) by (intros y H; apply (Permutation_in _ P) in H; apply in_zrange in H; lia).
  assert (A : forall l im0, NoDup l -> cols im0 = cols im -> rows im0 = rows im -> (forall y, In y l -> 0 <= y < rows im) ->
    let out := fold_left (merge_row n) l im0 in cols out = cols im /\ rows out = rows im /\
    (forall x y, In y l -> 0 <= x < cols im -> texel out x y = texel im0 x y + block_ends n (fun i => texel im0 i y) (x / n)) /\ (forall x y, ~ In y l -> texel out x y = texel im0 x y)).
  { induction l as [|y l IH]; intros im0 NDl C0 R0 Il; cbn [fold_left].
    - cbn. repeat split; try assumption; tauto.
    - inversion NDl as [|? ? NI NDl']; subst. destruct (merge_row_spec n im0 y N) as (SC & SR & ST & SO); [lia|rewrite R0; apply Il; left; reflexivity|].
      destruct (IH (merge_row n im0 y) NDl') as (IC & IR & IT & IO); [lia|lia|intros; apply Il; right; assumption|].
      split; [exact IC|]. split; [exact IR|]. split.
      + intros x y' [<-|H] X.
        * rewrite IO by exact NI. apply ST. lia.
        * assert (D : y' <> y) by (intros ->; contradiction). rewrite IT by assumption. rewrite SO by exact D. f_equal. unfold block_ends. f_equal. apply map_ext. intro c. apply SO. exact D.
      + intros x y' H. rewrite IO by (intro; apply H; right; assumption). apply SO. intros ->. apply H. left. reflexivity. }
  destruct (A order im ND eq_refl eq_refl IN) as (AC & AR & AT & _). split; [exact AC|]. split; [exact AR|]. intros x y X Y. apply AT; [|exact X].
  apply (Permutation_in _ (Permutation_sym P)). apply in_zrange. lia.
Qed.

Lemma block_start n x : 0 < n -> 0 <= x -> 0 <= x / n /\ x / n * n <= x < x / n * n + n.
Proof. intros N X. pose proof (Z.div_mod x n ltac:(lia)). pose proof (Z.mod_pos_bound x n N). split; [apply Z.div_pos; lia|lia]. Qed.
Lemma ends_of_sums n row g b : 0 < n -> 0 <= b -> (forall c, 1 <= c <= b -> g (c * n - 1) = sum_between row ((c - 1) * n) (c * n - 1)) ->
  block_ends n g b = sum_between row 0 (b * n) - block_ends n row b.
Proof.
  intros N B. pattern b. apply natlike_ind; [|clear b B|exact B].
  - intros _. cbn. reflexivity.
  - intros b B IH G. rewrite <- Z.add_1_r in *. rewrite !block_ends_S by lia. rewrite IH by (intros c C; apply G; lia). rewrite G by lia.
    rewrite (between_add row 0 (b * n) ((b + 1) * n)) by nia. rewrite (between_add row (b * n) ((b + 1) * n - 1) ((b + 1) * n)) by nia.
    replace ((b + 1 - 1) * n) with (b * n) by ring.
    pose proof (between_one row ((b + 1) * n - 1)) as O. replace ((b + 1) * n - 1 + 1) with ((b + 1) * n) in O by ring. lia.
Qed.
Lemma merged_sums k groups binary im mid out x y : prefix_sum (2 ^ Z.of_nat (S k)) groups binary im mid -> cols im <= groups * 2 ^ Z.of_nat (S k) -> block_merge (2 ^ Z.of_nat (S k)) mid out ->
  0 <= x < cols im -> 0 <= y < rows im ->
  let row := fun c => if binary then texel im c y mod 2 else texel im c y in
  texel out x y = sum_before row x - block_ends (2 ^ Z.of_nat (S k)) row (x / 2 ^ Z.of_nat (S k)).
Proof.
  intros P G M X Y row. pose proof (fun x X => rows_sums k groups binary im mid x y P X) as SM. destruct P as (C & R & _).
  set (n := 2 ^ Z.of_nat (S k)) in *. assert (N : 0 < n) by apply pow_pos.
  destruct (merged n mid out N) as (_ & _ & T); [lia|exact M|]. rewrite T by lia.
  destruct (block_start n x N ltac:(lia)) as (Q & E).
  rewrite (ends_of_sums n row _ (x / n) N Q).
  - rewrite SM by lia. fold row. unfold sum_before. rewrite (between_add row 0 (x / n * n) x) by nia. lia.
  - intros c Hc. rewrite SM by nia. f_equal. f_equal. replace (c * n - 1) with (n - 1 + (c - 1) * n) by ring. rewrite Z.div_add, Z.div_small by lia. lia.
Qed.
Lemma merged_inclusive n im out row y x : 0 < n -> 0 < cols im -> block_merge n im out -> 0 <= y < rows im -> (forall x, 0 <= x < cols im -> texel im x y = sum_between row (x / n * n) (x + 1)) ->
  0 <= x < cols im -> texel out x y = sum_before row (x + 1).
Proof.
  intros N C M Y I X. destruct (merged n im out N C M) as (_ & _ & T). rewrite T by lia. rewrite I by lia.
  destruct (block_start n x N ltac:(lia)) as (Q & E).
  assert (A : forall b, 0 <= b -> b * n - 1 < cols im -> block_ends n (fun i => texel im i y) b = sum_between row 0 (b * n)).
  { intros b B. pattern b. apply natlike_ind; [|clear b B|exact B].
    - intros _. reflexivity.
    - intros b B IH L. rewrite <- Z.add_1_r in *. rewrite block_ends_S by lia. rewrite IH by nia. rewrite I by nia.
      replace ((b + 1) * n - 1 + 1) with ((b + 1) * n) by ring. replace (((b + 1) * n - 1) / n) with b.
      2:{ replace ((b + 1) * n - 1) with (n - 1 + b * n) by ring. rewrite Z.div_add, Z.div_small by lia. lia. }
      rewrite (between_add row 0 (b * n) ((b + 1) * n)) by nia. reflexivity. }
  rewrite A by nia. unfold sum_before. rewrite (between_add row 0 (x / n * n) (x + 1)) by nia. lia.
Qed.

(* sizes *)
Lemma up_steps_length : forall fuel d o, 1 <= d -> (Z.to_nat (Z.log2 d) < fuel)%nat -> Z.of_nat (length (up_steps fuel d o)) = Z.log2 d + 1.
Proof.
  induction fuel as [|f IH]; intros d o D L; [lia|]. cbn [up_steps]. rewrite (proj2 (Z.ltb_lt 0 d)) by lia. cbn [length]. rewrite Nat2Z.inj_succ.
  destruct (Z.eq_dec d 1) as [->|N].
  - change (1 / 2) with 0. destruct f; reflexivity.
  - assert (H : Z.log2 (d / 2) = Z.log2 d - 1). { rewrite <- Z.div2_div, Z.div2_spec, Z.log2_shiftr by lia. pose proof (Z.log2_pos d ltac:(lia)). lia. }
    assert (1 <= d / 2) by (apply Z.div_le_lower_bound; lia). pose proof (Z.log2_pos d ltac:(lia)). rewrite IH by lia. lia.
Qed.
Lemma down_steps_zero n : forall a fuel j, (a < fuel)%nat -> 2 ^ Z.of_nat (j + a) < n -> In (2 ^ Z.of_nat (j + a), 0) (down_steps fuel (2 ^ Z.of_nat j) (2 ^ Z.of_nat a) n).
Proof.
  induction a as [|a IH]; intros fuel j F L; (destruct fuel as [|f]; [lia|]); cbn [down_steps].
  - rewrite Nat.add_0_r in *. rewrite (proj2 (Z.ltb_lt _ _) L). left. reflexivity.
  - assert (L' : 2 ^ Z.of_nat j < n). { eapply Z.le_lt_trans; [|exact L]. apply Z.pow_le_mono_r; lia. }
    rewrite (proj2 (Z.ltb_lt _ _) L'). right. rewrite pow_S, (Z.mul_comm 2), Z.div_mul by lia. rewrite (Z.mul_comm _ 2), <- pow_S.
    replace (j + S a)%nat with (S j + a)%nat in * by lia. apply IH; [lia|exact L].
Qed.
Lemma sizes n row : 2 <= n -> (in_bounds n (scan n row) <-> exists k, n = 2 ^ Z.of_nat (S k)).
Proof.
  intro N. split.
  2:{ intros (k & ->). apply scan_bounds. }
  intro B. destruct (Z.Even_or_Odd n) as [(h & E)|(h & E)].
  - (* an even number *)
    assert (I : invocations n = h). { unfold invocations. rewrite E. replace (2 * h + 1) with (1 + h * 2) by ring. rewrite Z.div_add by lia. reflexivity. }
    destruct (Z.eq_dec (2 ^ Z.log2 h) h) as [P|P].
    + exists (Z.to_nat (Z.log2 h)). pose proof (Z.log2_nonneg h). rewrite pow_S, Z2Nat.id by lia. lia.
    + exfalso. pose proof (Z.log2_spec h ltac:(lia)) as S. pose proof (Z.log2_nonneg h) as L0.
      assert (LN : Z.log2 n = Z.log2 h + 1). { rewrite E. rewrite Z.log2_double by lia. lia. }
      unfold scan in B. cbv zeta in B. rewrite I in B.
      pose proof (up_steps_length (bits n) h 1 ltac:(lia)) as LE. unfold bits in LE. rewrite LN in LE. specialize (LE ltac:(lia)).
      assert (Hin : In (2 ^ Z.of_nat (0 + Z.to_nat (Z.log2 h + 1)), 0) (down_steps (bits n) (2 ^ Z.of_nat 0) (2 ^ Z.of_nat (Z.to_nat (Z.log2 h + 1))) n)).
      { apply down_steps_zero; [unfold bits; lia|]. cbn [Nat.add]. rewrite Z2Nat.id by lia. rewrite Z.add_1_r, Z.pow_succ_r by lia. lia. }
      cbn [Nat.add] in Hin. rewrite Z2Nat.id in Hin by lia. change (2 ^ Z.of_nat 0) with 1 in Hin. unfold bits in Hin at 1. rewrite LN in Hin.
      assert (X : 0 <= snd (tmp (-1)) < n); [|cbn in X; lia].
      apply (B (down (2 ^ (Z.log2 h + 1), 0)) 0%nat (Load (tmp (-1)))).
      * right. apply in_or_app. right. apply in_or_app. right. apply in_map. unfold bits. rewrite LN. rewrite LE. exact Hin.
      * cbn. lia.
      * unfold down. cbn [fst snd]. rewrite (proj2 (Z.ltb_lt _ _)). { left. reflexivity. } apply Z.pow_pos_nonneg; lia.
      * reflexivity.
      * reflexivity.
  - (* an odd number *)
    exfalso. assert (I : invocations n = h + 1). { unfold invocations. rewrite E. replace (2 * h + 1 + 1) with ((h + 1) * 2) by ring. rewrite Z.div_mul by lia. reflexivity. }
    assert (X : 0 <= snd (tmp n) < n); [|cbn in X; lia].
    apply (B (load row) (Z.to_nat h) (Store (tmp n))).
    + left. reflexivity.
    + rewrite I. lia.
    + unfold load. cbv zeta. rewrite Z2Nat.id by lia. right. right. right. left. do 2 f_equal. lia.
    + reflexivity.
    + reflexivity.
Qed.

(* the number of groups *)
Lemma few_groups columns n : 0 < n -> 2 * n < columns -> documented_groups columns n * n < columns.
Proof.
  intros N C. unfold documented_groups. pose proof (Z.div_mod ((columns + 1) / 2 + n - 1) n ltac:(lia)). pose proof (Z.mod_pos_bound ((columns + 1) / 2 + n - 1) n N).
  pose proof (Z.div_mod (columns + 1) 2 ltac:(lia)). pose proof (Z.mod_pos_bound (columns + 1) 2 ltac:(lia)). nia.
Qed.
Lemma unwritten n groups binary im out x y v : 0 < n -> prefix_sum n groups binary im out -> (invocations n * 2 = n) -> groups * n <= x ->
  prefix_sum n groups binary im {| cols := cols out; rows := rows out; texel := fun x' y' => if (x' =? x) && (y' =? y) then v else texel out x' y' |}.
Proof.
  intros N (C & R & H) I X. split; [exact C|]. split; [exact R|]. intros b y' B Y. destruct (H b y' B Y) as (m & m' & K & T). exists m, m'. split; [exact K|].
  intros i Hi L. cbn [texel]. replace (b * n + i =? x) with false by (symmetry; apply Z.eqb_neq; nia). cbn [andb]. apply T; assumption.
Qed.
