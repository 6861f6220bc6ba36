From Coq Require Import ZArith List Bool Arith Lia.
From Verif Require Import Model.Strings Model.Groups Spec.Groups Proofs.Groups Model.Names Spec.Names.
Import ListNotations.
Open Scope Z_scope.

Definition digit (c : char) : Prop := (48 <= c <= 57)%nat.
Definition pow (k : nat) : Z := 10 ^ Z.of_nat k.
Lemma pow_S k : pow (S k) = 10 * pow k.
Proof. unfold pow. rewrite Nat2Z.inj_succ, Z.pow_succ_r by lia. reflexivity. Qed.
Lemma pow_pos k : 0 < pow k.
Proof. unfold pow. apply Z.pow_pos_nonneg; lia. Qed.

Lemma value_from : forall s a, fold_left (fun a c => 10 * a + (Z.of_nat c - 48)) s a = a * pow (length s) + value s.
Proof.
  unfold value. induction s as [|c s IH]; intros a; cbn [fold_left length].
  - unfold pow. cbn. lia.
  - rewrite IH, (IH (10 * 0 + _)), pow_S. lia.
Qed.
Lemma value_cons c s : value (c :: s) = (Z.of_nat c - 48) * pow (length s) + value s.
Proof. unfold value at 1. cbn [fold_left]. rewrite value_from. f_equal. Qed.
Lemma value_app a b : value (a ++ b) = value a * pow (length b) + value b.
Proof. unfold value at 1. rewrite fold_left_app. apply value_from. Qed.
Lemma value_zeros k : value (repeat 48%nat k) = 0.
Proof. induction k; [reflexivity|]. cbn [repeat]. rewrite value_cons, IHk. lia. Qed.
Lemma value_range s : Forall digit s -> 0 <= value s < pow (length s).
Proof.
  induction 1 as [|c s D _ IH]; [unfold pow; cbn; lia|]. rewrite value_cons. cbn [length]. rewrite pow_S. unfold digit in D. nia.
Qed.

Lemma digits_value : forall f n acc, 0 <= n < pow f -> value (digits f n acc) = n * pow (length acc) + value acc.
Proof.
  induction f as [|f IH]; intros n acc H; cbn [digits].
  - unfold pow in H. cbn in H. replace n with 0 by lia. lia.
  - rewrite pow_S in H. pose proof (Z.mod_pos_bound n 10 ltac:(lia)) as M. pose proof (Z.div_mod n 10 ltac:(lia)) as E.
    assert (V : value (Z.to_nat (48 + n mod 10) :: acc) = (n mod 10) * pow (length acc) + value acc).
    { rewrite value_cons. rewrite Z2Nat.id by lia. f_equal. f_equal. lia. }
    destruct (Z.ltb_spec n 10).
    + rewrite V, Z.mod_small by lia. reflexivity.
    + rewrite IH by (split; [apply Z.div_pos; lia|apply Z.div_lt_upper_bound; lia]). rewrite V. cbn [length]. rewrite pow_S. rewrite E at 3. ring.
Qed.

Lemma digits_digit : forall f n acc, Forall digit acc -> Forall digit (digits f n acc).
Proof.
  induction f as [|f IH]; intros n acc H; cbn [digits]; auto. pose proof (Z.mod_pos_bound n 10 ltac:(lia)) as M.
  assert (Forall digit (Z.to_nat (48 + n mod 10) :: acc)) by (constructor; auto; unfold digit; lia).
  destruct (n <? 10); auto.
Qed.

Lemma digits_length : forall f n acc k, 0 <= n < pow (S k) -> (length (digits f n acc) <= S k + length acc)%nat.
Proof.
  induction f as [|f IH]; intros n acc k H; cbn [digits]; [lia|]. destruct (Z.ltb_spec n 10); cbn [length]; [lia|].
  rewrite pow_S in H. destruct k as [|k]; [unfold pow in H; cbn in H; lia|].
  assert (L := IH (n / 10) (Z.to_nat (48 + n mod 10) :: acc) k ltac:(split; [apply Z.div_pos; lia|apply Z.div_lt_upper_bound; lia])). cbn [length] in L. lia.
Qed.

Lemma size_pow n : size_t n -> 0 <= n < pow 20.
Proof. unfold size_t. intros H. split; [lia|]. eapply Z.lt_trans; [apply H|reflexivity]. Qed.

Lemma zu_value w n : size_t n -> value (zu w n) = n.
Proof.
  intros H. unfold zu. rewrite value_app, value_zeros, digits_value by (apply size_pow; exact H). change (value []) with 0. change (pow (@length char [])) with 1. ring.
Qed.
Lemma zu_digit w n : Forall digit (zu w n).
Proof.
  unfold zu. apply Forall_app. split; [|apply digits_digit; constructor]. apply Forall_forall. intros c I. apply repeat_spec in I. subst. unfold digit. lia.
Qed.
Lemma zu_length w n : (0 < w)%nat -> 0 <= n < pow w -> length (zu w n) = w.
Proof.
  intros W H. unfold zu. rewrite app_length, repeat_length. destruct w as [|w]; [lia|]. pose proof (digits_length 20 n [] w H) as L. cbn [length] in L. unfold str, char in *. lia.
Qed.
Lemma zu_inj w w' n m : size_t n -> size_t m -> zu w n = zu w' m -> n = m.
Proof. intros N M E. rewrite <- (zu_value w n N), <- (zu_value w' m M), E. reflexivity. Qed.

Lemma input_inj count i j : size_t i -> size_t j -> getInputName count i = getInputName count j -> i = j.
Proof. apply zu_inj. Qed.
Lemma output_inj count i j : size_t i -> size_t j -> getOutputName count None i = getOutputName count None j -> i = j.
Proof. apply zu_inj. Qed.
Lemma features_inj i j : size_t i -> size_t j -> getFeaturesName None i = getFeaturesName None j -> i = j.
Proof. apply zu_inj. Qed.
Lemma cdnet_inj i j : size_t i -> size_t j -> cdnet_name i = cdnet_name j -> i = j.
Proof.
  unfold cdnet_name, size_t. intros I J E. apply app_inv_head in E. apply zu_inj in E; try (unfold size_t, u64; apply Z.mod_pos_bound; lia).
  unfold u64 in E. change 18446744073709551616 with (2 ^ 64) in E.
  pose proof (Z.div_mod (i + 1) (2 ^ 64) ltac:(lia)). pose proof (Z.div_mod (j + 1) (2 ^ 64) ltac:(lia)).
  destruct (Z.eq_dec i (2 ^ 64 - 1)) as [ -> |], (Z.eq_dec j (2 ^ 64 - 1)) as [ -> |]; auto.
  - rewrite (Z.mod_small (j + 1)) in E by lia. replace (2 ^ 64 - 1 + 1) with (1 * 2 ^ 64) in E by lia. rewrite Z.mod_mul in E by lia. lia.
  - rewrite (Z.mod_small (i + 1)) in E by lia. replace (2 ^ 64 - 1 + 1) with (1 * 2 ^ 64) in E by lia. rewrite Z.mod_mul in E by lia. lia.
  - rewrite !Z.mod_small in E by lia. lia.
Qed.

(** * Order *)
Lemma before_value : forall a b, length a = length b -> Forall digit a -> Forall digit b -> (before a b <-> value a < value b).
Proof.
  induction a as [|x a IH]; intros [|y b] L A B; try discriminate L; cbn [before].
  - unfold value. cbn. lia.
  - injection L as L. inversion A as [|? ? X A']; inversion B as [|? ? Y B']; subst. rewrite !value_cons, L, IH by auto.
    pose proof (value_range a A') as VA. pose proof (value_range b B') as VB. rewrite L in VA. unfold digit in *. pose proof (pow_pos (length b)) as P. split.
    + intros [H|(-> & H)]; [|lia]. assert (Z.of_nat y >= Z.of_nat x + 1) by lia. nia.
    + intros H. destruct (lt_eq_lt_dec x y) as [[G| -> ]|G]; [left; exact G|right; split; [reflexivity|lia]|]. exfalso. assert (Z.of_nat x >= Z.of_nat y + 1) by lia. nia.
Qed.

Lemma before_irrefl a : ~ before a a.
Proof. induction a as [|x a IH]; cbn; [auto|]. intros [H|(_ & H)]; [lia|auto]. Qed.

Lemma before_around : forall d a b e, length a = length b -> (before (d ++ a ++ e) (d ++ b ++ e) <-> before a b).
Proof.
  induction d as [|c d IH]; intros a b e L; cbn [app before].
  - revert b L. induction a as [|x a IHa]; intros [|y b] L; try discriminate L; cbn [app before].
    + split; [intros H; exact (before_irrefl e H)|intros []].
    + injection L as L. rewrite (IHa b L). reflexivity.
  - rewrite IH by exact L. split; [intros [H|(_ & H)]; [lia|exact H]|auto].
Qed.

Lemma zu_order w d e i j : (0 < w)%nat -> size_t i -> size_t j -> i < pow w -> j < pow w -> (before (d ++ zu w i ++ e) (d ++ zu w j ++ e) <-> i < j).
Proof.
  intros W I J Hi Hj. unfold size_t in *. rewrite before_around by (rewrite !zu_length by (try exact W; lia); reflexivity).
  rewrite before_value; [rewrite !zu_value by (unfold size_t; lia); reflexivity| |apply zu_digit|apply zu_digit]. rewrite !zu_length by (try exact W; lia). reflexivity.
Qed.

Lemma output_order count d e i j : size_t i -> size_t j -> let lim := if (count <? 10000000)%Z then 1000000 else 1000000000 in i < lim -> j < lim ->
  (before (d ++ getOutputName count None i ++ e) (d ++ getOutputName count None j ++ e) <-> i < j).
Proof.
  intros I J lim Hi Hj. unfold getOutputName. apply zu_order; auto; subst lim; destruct (count <? 10000000); cbn [wide]; try lia; try exact Hi; exact Hj.
Qed.

(** * Images *)
Lemma upto_none e : ~ In 46%nat e -> upto_dot e = None.
Proof.
  induction e as [|c e IH]; intros H; [reflexivity|]. cbn [upto_dot]. rewrite IH by (intros I; apply H; right; exact I).
  destruct (Nat.eqb_spec c 46) as [ -> |]; [exfalso; apply H; left; reflexivity|reflexivity].
Qed.
Lemma upto_ext n e : ~ In 46%nat e -> upto_dot (n ++ 46%nat :: e) = Some n.
Proof.
  intros H. induction n as [|c n IH]; cbn [app upto_dot]; [rewrite (upto_none e H); reflexivity|]. rewrite IH. reflexivity.
Qed.
Lemma stem_path d n e : ~ In 46%nat e -> name_ok (n ++ 46%nat :: e) -> stem ((d ++ [47%nat]) ++ n ++ 46%nat :: e) = n.
Proof. intros H N. unfold stem. rewrite last_name_path by exact N. rewrite upto_ext by exact H. reflexivity. Qed.

Lemma image_inside paths i : 0 <= i < Z.of_nat (length paths) -> image_name paths i = stem (nth (Z.to_nat i) paths []).
Proof. intros H. unfold image_name. destruct (Z.leb_spec (Z.of_nat (length paths)) i); [lia|reflexivity]. Qed.

Lemma image_inj d e ns i j : ~ In 46%nat e -> Forall (fun n => name_ok (n ++ 46%nat :: e)) ns -> NoDup ns ->
  let paths := map (fun n => (d ++ [47%nat]) ++ n ++ 46%nat :: e) ns in
  0 <= i < Z.of_nat (length ns) -> 0 <= j < Z.of_nat (length ns) -> image_name paths i = image_name paths j -> i = j.
Proof.
  intros He N D paths I J. rewrite !image_inside by (unfold paths; rewrite map_length; assumption).
  assert (S : forall k, (k < length ns)%nat -> stem (nth k paths []) = nth k ns []).
  { intros k K. unfold paths. rewrite (nth_indep _ [] ((d ++ [47%nat]) ++ [] ++ 46%nat :: e)) by (rewrite map_length; exact K).
    rewrite (map_nth (fun n => (d ++ [47%nat]) ++ n ++ 46%nat :: e)). apply stem_path; auto. rewrite Forall_forall in N. apply N, nth_In, K. }
  rewrite !S by lia. intros E. assert (Z.to_nat i = Z.to_nat j) by (eapply (proj1 (NoDup_nth ns [])); eauto; lia). lia.
Qed.

(** * Files *)
Section Files.
Context {V : Type}.
Lemma write_same p (v : V) fs : write p v fs p = Some v.
Proof. unfold write. destruct (list_eq_dec Nat.eq_dec p p); [reflexivity|contradiction]. Qed.
Lemma write_other p q (v : V) fs : q <> p -> write p v fs q = fs q.
Proof. unfold write. intros H. destruct (list_eq_dec Nat.eq_dec q p); [contradiction|reflexivity]. Qed.

Section Archive.
Variable dir : str.
Variable name : Z -> str.
Variable ext : str.
Variable P : Z -> Prop.
Hypothesis inj : forall i j, P i -> P j -> name i = name j -> i = j.

Lemma path_inj i j : P i -> P j -> path dir name ext i = path dir name ext j -> i = j.
Proof. unfold path. intros I J E. apply app_inv_head in E. apply app_inv_tail in E. auto. Qed.

Lemma load_saved : forall (l : list (Z * V)) fs i, P i -> Forall (fun p => P (fst p)) l ->
  loadOutput dir name ext i (fold_left (fun fs p => saveOutput dir name ext (fst p) (snd p) fs) l fs) =
  match last_saved l i with Some v => Some v | None => loadOutput dir name ext i fs end.
Proof.
  induction l as [|[j v] l IH]; intros fs i I H; cbn [fold_left last_saved]; [reflexivity|]. inversion H as [|? ? J Hl]; subst. cbn [fst] in J.
  rewrite IH by auto. destruct (last_saved l i); [reflexivity|]. unfold saveOutput, loadOutput. cbn [fst snd]. destruct (Z.eqb_spec i j) as [ -> | N ].
  - apply write_same.
  - apply write_other. intros E. apply N. apply path_inj; auto.
Qed.

Lemma last_underscore : forall a b x y, ~ In 95%nat x -> ~ In 95%nat y -> a ++ 95%nat :: x = b ++ 95%nat :: y -> a = b /\ x = y.
Proof.
  intros a b x y X Y E. assert (R := f_equal (@rev _) E). rewrite !rev_app_distr in R. cbn [rev] in R. rewrite <- !app_assoc in R. cbn [app] in R.
  assert (C : forall p q u v, ~ In 95%nat p -> ~ In 95%nat q -> p ++ 95%nat :: u = q ++ 95%nat :: v -> p = q /\ u = v).
  { clear. induction p as [|c p IH]; intros [|c' q] u v A B E; cbn [app] in E; inversion E; subst; auto.
    - exfalso. apply B. left; reflexivity.
    - exfalso. apply A. left; reflexivity.
    - destruct (IH q u v) as [ -> -> ]; auto; intros I; [apply A|apply B]; right; auto. }
  apply C in R; [|rewrite <- in_rev; exact X|rewrite <- in_rev; exact Y]. destruct R as (R1 & R2). split.
  - rewrite <- (rev_involutive a), R2, rev_involutive. reflexivity.
  - rewrite <- (rev_involutive x), R1, rev_involutive. reflexivity.
Qed.

Lemma digits_no_underscore w n : ~ In 95%nat (zu w n).
Proof. intros I. pose proof (zu_digit w n) as D. rewrite Forall_forall in D. specialize (D _ I). unfold digit in D. lia. Qed.

Lemma stream_inj n i j s t : P i -> P j -> 0 <= s < n -> 0 <= t < n -> n < 2 ^ 64 -> stream_path dir name ext n i s = stream_path dir name ext n j t -> i = j /\ s = t.
Proof.
  intros I J S T N E. unfold stream_path in E. apply app_inv_head in E. rewrite !app_assoc in E. apply app_inv_tail in E. destruct (Z.ltb_spec 1 n).
  - apply last_underscore in E; try apply digits_no_underscore. destruct E as (E1 & E2). split; auto. apply zu_inj in E2; unfold size_t; lia.
  - rewrite !app_nil_r in E. split; [auto|lia].
Qed.

Lemma save_streams_other : forall vs n i s (fs : files) q, (forall t, s <= t < s + Z.of_nat (length vs) -> q <> stream_path dir name ext n i t) -> @save_streams V dir name ext n i s vs fs q = fs q.
Proof.
  induction vs as [|v vs IH]; intros n i s fs q H; cbn [save_streams length] in *; [reflexivity|].
  rewrite IH by (intros t T; apply H; lia). apply write_other. apply H. lia.
Qed.

Lemma save_streams_at : forall vs n i s (fs : files) k d, P i -> 0 <= s -> s + Z.of_nat (length vs) <= n -> n < 2 ^ 64 -> (k < length vs)%nat ->
  @save_streams V dir name ext n i s vs fs (stream_path dir name ext n i (s + Z.of_nat k)) = Some (nth k vs d).
Proof.
  induction vs as [|v vs IH]; intros n i s fs k d I S0 L N K; cbn [save_streams length] in *; [lia|]. destruct k as [|k]; cbn [nth].
  - rewrite Z.add_0_r. rewrite save_streams_other; [apply write_same|]. intros t T E. apply stream_inj in E; auto; lia.
  - replace (s + Z.of_nat (S k)) with (s + 1 + Z.of_nat k) by lia. apply IH; auto; lia.
Qed.

Lemma array_same vs i (fs : files) : P i -> Z.of_nat (length vs) < 2 ^ 64 -> @loadOutputArray V dir name ext (length vs) i (saveOutputArray dir name ext i vs fs) = map Some vs.
Proof.
  intros I N. unfold loadOutputArray, saveOutputArray. destruct vs as [|v0 vs]; [reflexivity|]. set (l := v0 :: vs) in *.
  transitivity (map (fun k => Some (nth k l v0)) (seq 0 (length l))).
  - apply map_ext_in. intros k K. apply in_seq in K. rewrite <- (save_streams_at l (Z.of_nat (length l)) i 0 fs k v0); auto; lia.
  - rewrite <- (map_map (fun k => nth k l v0) Some). f_equal. clear. induction l as [|a l IH]; [reflexivity|]. cbn [length seq map nth]. f_equal. rewrite <- seq_shift, map_map. exact IH.
Qed.

Lemma array_other vs i j (fs : files) : P i -> P j -> i <> j -> Z.of_nat (length vs) < 2 ^ 64 -> @loadOutputArray V dir name ext (length vs) j (saveOutputArray dir name ext i vs fs) = loadOutputArray dir name ext (length vs) j fs.
Proof.
  intros I J D N. unfold loadOutputArray, saveOutputArray. apply map_ext_in. intros k K. apply in_seq in K. apply save_streams_other. intros t T E. apply stream_inj in E; auto; lia.
Qed.
End Archive.
End Files.
