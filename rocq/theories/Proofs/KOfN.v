From Coq Require Import ZArith QArith List Bool Lia Factorial.
From Verif Require Import Lib.Grid Model.KOfN Spec.KOfN.
Import ListNotations.
Open Scope Z_scope.

(* small *)
Lemma split_ok n leftN : 0 <= leftN <= n -> forall m i l r xs, 0 <= l <= leftN -> 0 <= r <= n - leftN -> l + r = i -> i + Z.of_nat m <= n -> match split m i n leftN l r xs with
  | Some (l', r', xs') => l <= l' <= leftN /\ r <= r' <= n - leftN /\ l' + r' = i + Z.of_nat m
  | None => True
  end.
Proof.
  intros HN. induction m as [|m IH]; intros i l r xs Hl Hr E Hm; cbn [split]; [split; [lia|split; [lia|lia]]|]. destruct xs as [|x xs]; [exact I|]. destruct (Z.leb_spec 0 x), (Z.leb_spec x (n - i - 1)); cbn [andb negb]; try exact I. destruct (Z.ltb_spec x (leftN - l)).
  - specialize (IH (i + 1) (l + 1) r xs ltac:(lia) Hr ltac:(lia) ltac:(lia)). destruct (split m (i + 1) n leftN (l + 1) r xs) as [[[l' r'] xs']|]; [|exact I]. lia.
  - specialize (IH (i + 1) l (r + 1) xs Hl ltac:(lia) ltac:(lia) ltac:(lia)). destruct (split m (i + 1) n leftN l (r + 1) xs) as [[[l' r'] xs']|]; [|exact I]. lia.
Qed.
Lemma shift_right_ok off leftK k leftN v j : 0 <= leftK <= k -> shift_right off leftK k leftN v j = if (off + leftK <=? j) && (j <? off + k) then v j + leftN else v j.
Proof.
  intros H. unfold shift_right, zrange. replace k with (leftK + Z.of_nat (Z.to_nat (k - leftK))) at 2 by lia. generalize (Z.to_nat (k - leftK)) as m. intros m. clear H k. revert leftK v. induction m as [|m IH]; intros a v.
  - cbn [zseq map seq fold_left]. destruct (Z.leb_spec (off + a) j), (Z.ltb_spec j (off + (a + Z.of_nat 0))); cbn [andb]; try reflexivity. lia.
  - rewrite zseq_S. cbn [fold_left]. rewrite IH. unfold put. destruct (Z.eqb_spec j (off + a)) as [->|].
    + destruct (Z.leb_spec (off + (a + 1)) (off + a)); [lia|]. destruct (Z.leb_spec (off + a) (off + a)); [|lia]. destruct (Z.ltb_spec (off + a) (off + (a + Z.of_nat (S m)))); [reflexivity|lia].
    + destruct (Z.leb_spec (off + (a + 1)) j), (Z.leb_spec (off + a) j), (Z.ltb_spec j (off + (a + 1 + Z.of_nat m))), (Z.ltb_spec j (off + (a + Z.of_nat (S m)))); cbn [andb]; try reflexivity; lia.
Qed.
Lemma half n : 2 <= n -> 0 < Z.quot n 2 < n /\ n - Z.quot n 2 < n.
Proof. intros H. rewrite Z.quot_div_nonneg by lia. assert (A := Z.div_mod n 2 ltac:(lia)). assert (B := Z.mod_pos_bound n 2 ltac:(lia)). lia. Qed.
Lemma small_ok : forall fuel k n off xs v, 1 <= k <= n -> n <= Z.of_nat fuel -> match small fuel k n off xs v with
  | Some (v', _) => sample k n off v' /\ forall j, j < off \/ off + k <= j -> v' j = v j
  | None => True
  end.
Proof.
  induction fuel as [|m IH]; intros k n off xs v Hk Hf; [lia|]. cbn [small]. destruct (Z.eqb_spec k 1) as [->|K1].
  - destruct xs as [|x xs]; [exact I|]. destruct (Z.leb_spec 0 x), (Z.leb_spec x (n - 1)); cbn [andb]; try exact I. split; [split|].
    + intros i Hi. unfold put. destruct (Z.eqb_spec i off); lia.
    + intros; lia.
    + intros j Hj. unfold put. destruct (Z.eqb_spec j off); [lia|reflexivity].
  - destruct (half n ltac:(lia)) as [H1 H2]. set (leftN := Z.quot n 2) in *. assert (S1 := split_ok n leftN ltac:(lia) (Z.to_nat k) 0 0 0 xs ltac:(lia) ltac:(lia) eq_refl ltac:(lia)). destruct (split (Z.to_nat k) 0 n leftN 0 0 xs) as [[[l r] xs1]|]; [|exact I].
    assert (A : match (if 0 <? l then small m l leftN off xs1 v else Some (v, xs1)) with Some (v1, _) => sample l leftN off v1 /\ forall j, j < off \/ off + l <= j -> v1 j = v j | None => True end).
    { destruct (Z.ltb_spec 0 l); [apply IH; lia|]. split; [split; intros; lia|reflexivity]. }
    destruct (if 0 <? l then small m l leftN off xs1 v else Some (v, xs1)) as [[v1 xs2]|]; [|exact I]. destruct A as [A1 A2].
    assert (B : match (if 0 <? r then small m r (n - leftN) (off + l) xs2 v1 else Some (v1, xs2)) with Some (v2, _) => sample r (n - leftN) (off + l) v2 /\ forall j, j < off + l \/ off + l + r <= j -> v2 j = v1 j | None => True end).
    { destruct (Z.ltb_spec 0 r); [apply IH; lia|]. split; [split; intros; lia|reflexivity]. }
    destruct (if 0 <? r then small m r (n - leftN) (off + l) xs2 v1 else Some (v1, xs2)) as [[v2 xs3]|]; [|exact I]. destruct B as [B1 B2].
    destruct S1 as (L1 & L2 & L3). destruct A1 as [P1 P2], B1 as [Q1 Q2].
    assert (V : forall j, shift_right off l k leftN v2 j = if j <? off then v j else if j <? off + l then v1 j else if j <? off + k then v2 j + leftN else v j).
    { intros j. rewrite shift_right_ok by lia. destruct (Z.ltb_spec j off), (Z.leb_spec (off + l) j), (Z.ltb_spec j (off + k)), (Z.ltb_spec j (off + l)); cbn [andb]; try lia; try reflexivity; try (rewrite B2, A2 by lia; reflexivity); rewrite B2 by lia; reflexivity. }
    split; [split|].
    + intros i Hi. rewrite V. destruct (Z.ltb_spec i off); [lia|]. destruct (Z.ltb_spec i (off + l)); [specialize (P1 i ltac:(lia)); lia|]. destruct (Z.ltb_spec i (off + k)); [|lia]. specialize (Q1 i ltac:(lia)). lia.
    + intros i j Hi Hj. rewrite !V. destruct (Z.ltb_spec i off); [lia|]. destruct (Z.ltb_spec j off); [lia|]. destruct (Z.ltb_spec i (off + k)); [|lia]. destruct (Z.ltb_spec j (off + k)); [|lia]. destruct (Z.ltb_spec i (off + l)), (Z.ltb_spec j (off + l)).
      * apply P2; lia.
      * specialize (P1 i ltac:(lia)). specialize (Q1 j ltac:(lia)). lia.
      * lia.
      * specialize (Q2 i j ltac:(lia) ltac:(lia)). lia.
    + intros j Hj. rewrite V. destruct (Z.ltb_spec j off); [reflexivity|]. destruct (Z.ltb_spec j (off + l)); [lia|]. destruct (Z.ltb_spec j (off + k)); [lia|reflexivity].
Qed.
(* the depth is never what stops it *)
Lemma small_fuel : forall f1 f2 k n off xs v, 1 <= k <= n -> n <= Z.of_nat f1 -> n <= Z.of_nat f2 -> small f1 k n off xs v = small f2 k n off xs v.
Proof.
  induction f1 as [|f1 IH]; intros [|f2] k n off xs v Hk H1 H2; try lia. cbn [small]. destruct (Z.eqb_spec k 1); [reflexivity|]. destruct (half n ltac:(lia)) as [A1 A2]. set (leftN := Z.quot n 2) in *. assert (S1 := split_ok n leftN ltac:(lia) (Z.to_nat k) 0 0 0 xs ltac:(lia) ltac:(lia) eq_refl ltac:(lia)). destruct (split (Z.to_nat k) 0 n leftN 0 0 xs) as [[[l r] xs1]|]; [|reflexivity].
  assert (E : (if 0 <? l then small f1 l leftN off xs1 v else Some (v, xs1)) = (if 0 <? l then small f2 l leftN off xs1 v else Some (v, xs1))) by (destruct (Z.ltb_spec 0 l); [apply IH; lia|reflexivity]). rewrite E. destruct (if 0 <? l then small f2 l leftN off xs1 v else Some (v, xs1)) as [[v1 xs2]|]; [|reflexivity].
  destruct (Z.ltb_spec 0 r); [rewrite (IH f2) by lia|]; reflexivity.
Qed.
(* every sample can come out *)
Lemma split_all n leftN : 0 <= leftN <= n -> forall m i l r l' r' xs, 0 <= l -> 0 <= r -> l + r = i -> l <= l' <= leftN -> r <= r' <= n - leftN -> l' + r' = i + Z.of_nat m ->
  exists ys, split m i n leftN l r (ys ++ xs) = Some (l', r', xs).
Proof.
  intros HN. induction m as [|m IH]; intros i l r l' r' xs Hl Hr E Hl' Hr' Hm.
  - exists []. cbn. repeat f_equal; lia.
  - destruct (Z_lt_le_dec l l') as [C|C].
    + destruct (IH (i + 1) (l + 1) r l' r' xs) as (ys & Y); try lia. exists (0 :: ys). cbn [split app]. destruct (Z.leb_spec 0 (n - i - 1)); [|lia]. cbn [Z.leb Z.compare andb negb]. destruct (Z.ltb_spec 0 (leftN - l)); [exact Y|lia].
    + destruct (IH (i + 1) l (r + 1) l' r' xs) as (ys & Y); try lia. exists ((n - i - 1) :: ys). cbn [split app]. destruct (Z.leb_spec 0 (n - i - 1)); [|lia]. rewrite Z.leb_refl. cbn [andb negb]. destruct (Z.ltb_spec (n - i - 1) (leftN - l)); [lia|exact Y].
Qed.
(* how many of the k values are below b *)
Lemma cut_point k n off v b : sample k n off v -> 0 <= k -> 0 <= b -> exists l, 0 <= l <= k /\ (forall i, off <= i < off + l -> v i < b) /\ (forall i, off + l <= i < off + k -> b <= v i).
Proof.
  intros [P Q] Hk Hb. revert Q P. rewrite <- (Z2Nat.id k Hk). generalize (Z.to_nat k) as m. clear Hk k. induction m as [|m IH]; intros Q P; [exists 0; split; [lia|]; split; intros; lia|].
  destruct IH as (l & A & B & C); [intros; apply Q; lia|intros; apply P; lia|]. destruct (Z_lt_le_dec l (Z.of_nat m)) as [D|D].
  - exists l. split; [lia|]. split; [exact B|]. intros i Hi. destruct (Z.eq_dec i (off + Z.of_nat m)) as [->|]; [|apply C; lia]. assert (X := C (off + l) ltac:(lia)). assert (Y := Q (off + l) (off + Z.of_nat m) ltac:(lia) ltac:(lia)). lia.
  - assert (l = Z.of_nat m) by lia. subst l. destruct (Z_lt_le_dec (v (off + Z.of_nat m)) b).
    + exists (Z.of_nat (S m)). split; [lia|]. split; [|intros; lia]. intros i Hi. destruct (Z.eq_dec i (off + Z.of_nat m)) as [->|]; [assumption|apply B; lia].
    + exists (Z.of_nat m). split; [lia|]. split; [exact B|]. intros i Hi. replace i with (off + Z.of_nat m) by lia. assumption.
Qed.
Lemma room k n off v : sample k n off v -> 0 <= k -> 0 <= n -> k <= n.
Proof.
  intros [P Q] Hk Hn. assert (G : forall m, 0 <= Z.of_nat m < k -> Z.of_nat m <= v (off + Z.of_nat m)).
  { induction m as [|m IH]; intros H; [apply P; lia|]. specialize (IH ltac:(lia)). assert (X := Q (off + Z.of_nat m) (off + Z.of_nat (S m)) ltac:(lia) ltac:(lia)). lia. }
  destruct (Z.eq_dec k 0); [lia|]. specialize (G (Z.to_nat (k - 1)) ltac:(lia)). rewrite Z2Nat.id in G by lia. specialize (P (off + (k - 1)) ltac:(lia)). lia.
Qed.
Lemma small_all : forall fuel k n off t xs, 1 <= k <= n -> n <= Z.of_nat fuel -> sample k n off t -> exists ys, forall v, exists v', small fuel k n off (ys ++ xs) v = Some (v', xs) /\ forall j, off <= j < off + k -> v' j = t j.
Proof.
  induction fuel as [|m IH]; intros k n off t xs Hk Hf T; [lia|]. cbn [small]. destruct (Z.eqb_spec k 1) as [->|K1].
  - assert (X := proj1 T off ltac:(lia)). exists [t off]. intros v. exists (put v off (t off)). cbn [app]. destruct (Z.leb_spec 0 (t off)), (Z.leb_spec (t off) (n - 1)); try lia. cbn [andb]. split; [reflexivity|]. intros j Hj. replace j with off by lia. unfold put. rewrite Z.eqb_refl. reflexivity.
  - destruct (half n ltac:(lia)) as [H1 H2]. set (leftN := Z.quot n 2) in *. destruct (cut_point k n off t leftN T ltac:(lia) ltac:(lia)) as (l & L & TL & TR). destruct T as [P Q].
    assert (SL : sample l leftN off t). { split; [intros i Hi; specialize (P i ltac:(lia)); specialize (TL i Hi); lia|intros; apply Q; lia]. }
    assert (SR : sample (k - l) (n - leftN) (off + l) (fun i => t i - leftN)). { split; [intros i Hi; specialize (P i ltac:(lia)); specialize (TR i ltac:(lia)); lia|intros i j Hi Hj; specialize (Q i j ltac:(lia) ltac:(lia)); lia]. }
    assert (RL := room _ _ _ _ SL ltac:(lia) ltac:(lia)). assert (RR := room _ _ _ _ SR ltac:(lia) ltac:(lia)).
    assert (B : exists ys, forall v1, exists v2, (if 0 <? k - l then small m (k - l) (n - leftN) (off + l) (ys ++ xs) v1 else Some (v1, ys ++ xs)) = Some (v2, xs) /\ (forall j, off + l <= j < off + k -> v2 j = t j - leftN) /\ forall j, j < off + l -> v2 j = v1 j).
    { destruct (Z.ltb_spec 0 (k - l)) as [C|C].
      - destruct (IH (k - l) (n - leftN) (off + l) _ xs ltac:(lia) ltac:(lia) SR) as (ys & E). exists ys. intros v1. destruct (E v1) as (v2 & E2 & F). exists v2. split; [exact E2|]. split; [intros j Hj; apply F; lia|]. assert (G := small_ok m (k - l) (n - leftN) (off + l) (ys ++ xs) v1 ltac:(lia) ltac:(lia)). rewrite E2 in G. intros j Hj. apply G. lia.
      - exists []. intros v1. exists v1. split; [reflexivity|]. split; [intros; lia|reflexivity]. }
    assert (A : forall zs, exists ys, forall v, exists v1, (if 0 <? l then small m l leftN off (ys ++ zs) v else Some (v, ys ++ zs)) = Some (v1, zs) /\ forall j, off <= j < off + l -> v1 j = t j).
    { intros zs. destruct (Z.ltb_spec 0 l) as [C|C]; [exact (IH l leftN off t zs ltac:(lia) ltac:(lia) SL)|]. exists []. intros v. exists v. split; [reflexivity|intros; lia]. }
    destruct B as (rs & R). destruct (A (rs ++ xs)) as (ls & E1).
    destruct (split_all n leftN ltac:(lia) (Z.to_nat k) 0 0 0 l (k - l) (ls ++ rs ++ xs)) as (ss & E0); try lia.
    exists (ss ++ ls ++ rs). intros v. destruct (E1 v) as (v1 & E1' & F1). destruct (R v1) as (v2 & E2 & F2 & G2). exists (shift_right off l k leftN v2). rewrite <- !app_assoc, E0, E1', E2. split; [reflexivity|]. intros j Hj. rewrite shift_right_ok by lia. destruct (Z.leb_spec (off + l) j), (Z.ltb_spec j (off + k)); cbn [andb]; try lia; [rewrite F2 by lia; lia|]. rewrite G2, F1 by lia. reflexivity.
Qed.

(* large *)
Lemma chosen_iff k j n i x : chosen k j n i x = true <-> (x < Qmake (k - j) (Z.to_pos (n - i)))%Q.
Proof.
  unfold chosen. rewrite negb_true_iff. destruct (Qle_bool (Qmake (k - j) (Z.to_pos (n - i))) x) eqn:E.
  - apply Qle_bool_iff in E. split; [discriminate|]. intros F. exfalso. exact (Qlt_not_le _ _ F E).
  - split; [|reflexivity]. intros _. apply Qnot_le_lt. intros F. apply Qle_bool_iff in F. congruence.
Qed.
Lemma picks_length ds : forall i, Z.of_nat (length (picks i ds)) = taken ds.
Proof. induction ds as [|[|] ds IH]; intros i; cbn [picks taken length]; [reflexivity| |]; specialize (IH (i + 1)); lia. Qed.
Lemma picks_range ds : forall i x, In x (picks i ds) -> i <= x < i + Z.of_nat (length ds).
Proof.
  induction ds as [|[|] ds IH]; intros i x H; cbn [picks length] in *; [destruct H| |].
  - destruct H as [<-|H]; [lia|]. specialize (IH _ _ H). lia.
  - specialize (IH _ _ H). lia.
Qed.
Lemma large_ok n k : forall m i j xs v, (m <= length xs)%nat -> i + Z.of_nat m = n -> exists v',
  large m i n k j xs v = Some (j + taken (choices (k - j) (n - i) (firstn m xs)), v', skipn m xs) /\
  (forall a, a < j -> v' a = v a) /\ (forall a d, (a < length (picks i (choices (k - j) (n - i) (firstn m xs))))%nat -> v' (j + Z.of_nat a) = nth a (picks i (choices (k - j) (n - i) (firstn m xs))) d) /\
  (forall a, j + taken (choices (k - j) (n - i) (firstn m xs)) <= a -> v' a = v a).
Proof.
  induction m as [|m IH]; intros i j xs v Hm E.
  - exists v. cbn. repeat split; try reflexivity; [repeat f_equal; lia|intros; lia].
  - destruct xs as [|x xs]; [cbn in Hm; lia|]. cbn [large firstn skipn choices]. cbn [length] in Hm. destruct (Qlt_le_dec x (Qmake (k - j) (Z.to_pos (n - i)))) as [C|C].
    + assert (F := proj2 (chosen_iff k j n i x) C). rewrite F. destruct (IH (i + 1) (j + 1) xs (put v j i) ltac:(lia) ltac:(lia)) as (v' & A & B & D & G). replace (k - j - 1) with (k - (j + 1)) by lia. replace (n - i - 1) with (n - (i + 1)) by lia. exists v'. cbn [taken picks]. split; [rewrite A, Z.add_assoc; reflexivity|]. split; [|split].
      * intros a Ha. rewrite B by lia. unfold put. destruct (Z.eqb_spec a j); [lia|reflexivity].
      * intros [|a] d Ha; cbn [length nth] in *. { rewrite Z.add_0_r, B by lia. unfold put. rewrite Z.eqb_refl. reflexivity. } rewrite <- (D a d ltac:(lia)). f_equal. lia.
      * assert (T := picks_length (choices (k - (j + 1)) (n - (i + 1)) (firstn m xs)) 0). intros a Ha. rewrite G by lia. unfold put. destruct (Z.eqb_spec a j); [lia|reflexivity].
    + assert (F : chosen k j n i x = false). { destruct (chosen k j n i x) eqn:F; [|reflexivity]. apply chosen_iff in F. exfalso. exact (Qlt_not_le _ _ F C). } rewrite F. destruct (IH (i + 1) j xs v ltac:(lia) ltac:(lia)) as (v' & A & B & D & G). replace (n - i - 1) with (n - (i + 1)) by lia. exists v'. cbn [taken picks]. rewrite Z.add_0_l. split; [exact A|]. split; [exact B|]. split; [exact D|exact G].
Qed.
Definition below_one (xs : list Q) : Prop := forall x, In x xs -> (0 <= x < 1)%Q.
Lemma choices_length xs : forall k n, length (choices k n xs) = length xs.
Proof. induction xs as [|x xs IH]; intros k n; cbn [choices length]; [reflexivity|]. destruct (Qlt_le_dec x _); cbn [length]; rewrite IH; reflexivity. Qed.
Lemma taken_choices xs : forall k, below_one xs -> 0 <= k <= Z.of_nat (length xs) -> taken (choices k (Z.of_nat (length xs)) xs) = k.
Proof.
  induction xs as [|x xs IH]; intros k B Hk; [cbn in *; lia|]. assert (Bx : below_one xs) by (intros y Hy; apply B; right; exact Hy). destruct (B x (or_introl eq_refl)) as [X0 X1]. cbn [choices]. replace (Z.of_nat (length (x :: xs)) - 1) with (Z.of_nat (length xs)) by (cbn [length]; lia). destruct (Qlt_le_dec x _) as [C|C]; cbn [taken].
  - rewrite IH; [lia|exact Bx|]. cbn [length] in Hk. destruct (Z.eq_dec k 0) as [->|]; [|lia]. exfalso. apply (Qlt_not_le _ _ C). eapply Qle_trans; [|exact X0]. unfold Qle. cbn. lia.
  - rewrite IH; [lia|exact Bx|]. cbn [length] in *. destruct (Z.eq_dec k (Z.of_nat (S (length xs)))) as [->|]; [|lia]. exfalso. apply (Qlt_not_le _ _ X1). eapply Qle_trans; [|exact C]. unfold Qle. cbn [Qnum Qden]. rewrite Z2Pos.id by lia. lia.
Qed.
Lemma picks_inc ds : forall i a b d, (a < b < length (picks i ds))%nat -> nth a (picks i ds) d < nth b (picks i ds) d.
Proof.
  induction ds as [|[|] ds IH]; intros i a b d H; cbn [picks length] in *; [lia| |apply IH; exact H].
  destruct b as [|b]; [lia|]. destruct a as [|a]; cbn [nth]; [|apply IH; lia]. assert (Hb : (b < length (picks (i + 1) ds))%nat) by lia. assert (X := picks_range ds (i + 1) _ (nth_In (picks (i + 1) ds) d Hb)). lia.
Qed.
Lemma large_sample n k xs v : 0 <= k <= n -> Z.of_nat (length xs) = n -> below_one xs -> exists v', large (Z.to_nat n) 0 n k 0 xs v = Some (k, v', []) /\ sample k n 0 v' /\ (forall a, a < 0 \/ k <= a -> v' a = v a).
Proof.
  intros Hk L B. destruct (large_ok n k (Z.to_nat n) 0 0 xs v ltac:(lia) ltac:(lia)) as (v' & A & P & Q & R). rewrite !Z.sub_0_r, <- L, Nat2Z.id, firstn_all, skipn_all in *. rewrite taken_choices in * by (assumption || lia). exists v'. split; [exact A|]. assert (T := picks_length (choices k (Z.of_nat (length xs)) xs) 0). rewrite taken_choices in T by (assumption || lia). split; [split|].
  - intros i Hi. replace i with (0 + Z.of_nat (Z.to_nat i)) by lia. rewrite (Q (Z.to_nat i) 0) by lia. assert (Hb : (Z.to_nat i < length (picks 0 (choices k (Z.of_nat (length xs)) xs)))%nat) by lia. assert (X := picks_range _ 0 _ (nth_In _ 0 Hb)). rewrite choices_length in X. lia.
  - intros i j Hi Hj. replace i with (0 + Z.of_nat (Z.to_nat i)) by lia. replace j with (0 + Z.of_nat (Z.to_nat j)) by lia. rewrite (Q (Z.to_nat i) 0), (Q (Z.to_nat j) 0) by lia. apply picks_inc. lia.
  - intros a [Ha|Ha]; [apply P|apply R]; lia.
Qed.
(* the odds of every sample are the same *)
Definition ffact (n : nat) : Z := Z.of_nat (fact n).
Lemma ffact_S n : ffact (S n) = Z.of_nat (S n) * ffact n.
Proof. unfold ffact. cbn [fact]. lia. Qed.
Lemma ffact_pos n : 0 < ffact n.
Proof. unfold ffact. assert (X := lt_O_fact n). lia. Qed.
Lemma taken_bound ds : 0 <= taken ds <= Z.of_nat (length ds).
Proof. induction ds as [|[|] ds IH]; cbn [taken length]; lia. Qed.
Lemma odds_ok ds : (odds (taken ds) (Z.of_nat (length ds)) ds * inject_Z (ffact (length ds)) == inject_Z (ffact (Z.to_nat (taken ds)) * ffact (length ds - Z.to_nat (taken ds))))%Q.
Proof.
  induction ds as [|[|] ds IH]; [reflexivity| |]; cbn [odds taken length]; assert (T := taken_bound ds).
  - replace (1 + taken ds - 1) with (taken ds) by lia. replace (Z.of_nat (S (length ds)) - 1) with (Z.of_nat (length ds)) by lia. replace (Z.to_nat (1 + taken ds)) with (S (Z.to_nat (taken ds))) by lia. cbn [Nat.sub]. rewrite !ffact_S.
    transitivity (inject_Z (1 + taken ds) * (odds (taken ds) (Z.of_nat (length ds)) ds * inject_Z (ffact (length ds))))%Q.
    + rewrite inject_Z_mult. assert (X : ((1 + taken ds # Z.to_pos (Z.of_nat (S (length ds)))) * inject_Z (Z.of_nat (S (length ds))) == inject_Z (1 + taken ds))%Q). { unfold Qeq, Qmult, inject_Z. cbn [Qnum Qden]. rewrite Pos.mul_1_r, Z2Pos.id by lia. lia. }
      rewrite <- X. ring.
    + rewrite IH, <- inject_Z_mult. apply inject_Z_injective. replace (Z.of_nat (S (Z.to_nat (taken ds)))) with (1 + taken ds) by lia. ring.
  - rewrite Z.add_0_l. replace (Z.of_nat (S (length ds)) - 1) with (Z.of_nat (length ds)) by lia. replace (S (length ds) - Z.to_nat (taken ds))%nat with (S (length ds - Z.to_nat (taken ds))) by lia. rewrite !ffact_S.
    transitivity (inject_Z (Z.of_nat (S (length ds)) - taken ds) * (odds (taken ds) (Z.of_nat (length ds)) ds * inject_Z (ffact (length ds))))%Q.
    + rewrite inject_Z_mult. assert (X : ((1 - (taken ds # Z.to_pos (Z.of_nat (S (length ds))))) * inject_Z (Z.of_nat (S (length ds))) == inject_Z (Z.of_nat (S (length ds)) - taken ds))%Q). { unfold Qeq, Qmult, Qminus, Qplus, Qopp, inject_Z. cbn [Qnum Qden]. rewrite ?Pos.mul_1_r, ?Pos.mul_1_l, Z2Pos.id by lia. lia. }
      rewrite <- X. ring.
    + rewrite IH, <- inject_Z_mult. apply inject_Z_injective. replace (Z.of_nat (S (length ds)) - taken ds) with (Z.of_nat (S (length ds - Z.to_nat (taken ds)))) by lia. ring.
Qed.
