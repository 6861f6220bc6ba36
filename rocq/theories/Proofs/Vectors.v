From Coq Require Import List ZArith Arith Bool Lia Permutation Sorted.
From Verif Require Import Model.Vectors Spec.Vectors.
Import ListNotations.

Open Scope nat_scope.
Section Find.
Context {A : Type} (eqb : A -> A -> bool) (eqb_ok : forall a b, eqb a b = true <-> a = b).

Lemma std_find_spec : forall l v, 
  (In v l /\ nth_error l (std_find eqb l v) = Some v /\ (forall j, j < std_find eqb l v -> nth_error l j <> Some v) /\ std_find eqb l v < length l)
  \/ (~ In v l /\ std_find eqb l v = length l).
Proof.
  induction l as [|x r IH]; intros v; cbn [std_find length].
  - right. split; [intros []|reflexivity].
  - destruct (eqb x v) eqn:E.
    + apply eqb_ok in E. subst x. left. repeat split; [left; reflexivity|intros; lia|lia].
    + assert (Hne : x <> v) by (intros C; apply eqb_ok in C; congruence).
      destruct (IH v) as [(H1 & H2 & H3 & H4)|[H1 H2]].
      * left. repeat split; [right; exact H1|exact H2| |lia].
        intros [|j] Hj; cbn; [congruence|]. apply H3. lia.
      * right. split; [intros [C|C]; [congruence|exact (H1 C)]|lia].
Qed.

Lemma find_end_iff : forall l v, (std_find eqb l v =? length l) = true <-> ~ In v l.
Proof.
  intros l v. rewrite Nat.eqb_eq. destruct (std_find_spec l v) as [(H1 & _ & _ & H4)|[H1 H2]].
  - split; [lia|intros C; contradiction].
  - split; auto.
Qed.

Lemma keeps_filter : forall (P : A -> Prop) f, (forall x, f x = true <-> P x) -> forall l, keeps P l (filter f l).
Proof.
  intros P f H. induction l as [|x r IH]; cbn; [constructor|]. destruct (f x) eqn:E.
  - constructor; [apply H; exact E|exact IH].
  - constructor; [rewrite <- H; congruence|exact IH].
Qed.

Lemma filter_out_keeps : forall vals tokens, keeps (fun v => ~ In v tokens) vals (filter_out eqb vals tokens).
Proof. intros. apply keeps_filter. intros x. apply find_end_iff. Qed.
Lemma filter_in_keeps : forall vals tokens, keeps (fun v => In v tokens) vals (filter_in eqb vals tokens).
Proof.
  intros. apply keeps_filter. intros x. rewrite negb_true_iff, <- not_true_iff_false, find_end_iff.
  destruct (std_find_spec tokens x) as [[H _]|[H _]]; tauto.
Qed.

Lemma indices_of_spec : forall vals refs, Forall2 (index_or_past refs) vals (indices_of eqb vals refs).
Proof.
  intros vals refs. unfold indices_of. destruct refs as [|x0 r].
  - induction vals; cbn; constructor; [|assumption]. right. split; [intros []|simpl; lia].
  - induction vals as [|v vals IH]; cbn [map]; constructor; [|exact IH].
    destruct (std_find_spec (x0 :: r) v) as [(H1 & H2 & H3 & H4)|[H1 H2]].
    + left. split; assumption.
    + right. split; [exact H1|]. rewrite H2. constructor.
Qed.

(** the two filters split the values *)
Lemma filter_partition : forall vals tokens, Permutation vals (filter_in eqb vals tokens ++ filter_out eqb vals tokens).
Proof.
  intros vals tokens. unfold filter_in, filter_out. induction vals as [|x r IH]; cbn; [constructor|].
  destruct (std_find eqb tokens x =? length tokens); cbn.
  - apply Permutation_cons_app. exact IH.
  - constructor. exact IH.
Qed.
End Find.

(** ** sort_indices, unique_indices *)
Section Uniq.
Variable key : nat -> Z.
Let eqk := fun i j => (key i =? key j)%Z.

Lemma unique_from_spec : forall l p, StronglySorted (fun a b => (key a <= key b)%Z) (p :: l) ->
  StronglySorted (fun a b => (key a < key b)%Z) (p :: std_unique_from eqk p l) /\
  (forall x, In x (std_unique_from eqk p l) -> In x l) /\
  (forall x, In x l -> exists y, In y (p :: std_unique_from eqk p l) /\ key y = key x).
Proof.
  induction l as [|x r IH]; intros p H; cbn [std_unique_from].
  - repeat split; [repeat constructor|intros ? []|intros ? []].
  - inversion H as [|? ? H1 H2]; subst. inversion H2 as [|? ? H3 H4]; subst. inversion H1 as [|? ? H5 H6]; subst.
    destruct (eqk p x) eqn:E; unfold eqk in E; [apply Z.eqb_eq in E|apply Z.eqb_neq in E].
    + destruct (IH p) as (I1 & I2 & I3); [constructor; assumption|].
      split; [exact I1|]. split; [intros y Hy; right; apply I2; exact Hy|].
      intros y [<-|Hy]; [exists p; split; [left; reflexivity|exact E]|apply I3; exact Hy].
    + destruct (IH x H1) as (I1 & I2 & I3). split; [|split].
      * constructor; [exact I1|]. inversion I1 as [|? ? _ I5]; subst.
        constructor; [lia|]. rewrite Forall_forall in *. intros y Hy. specialize (I5 y Hy). lia.
      * intros y [<-|Hy]; [left; reflexivity|right; apply I2; exact Hy].
      * intros y [<-|Hy].
        -- exists x. split; [right; left; reflexivity|reflexivity].
        -- destruct (I3 y Hy) as (z & Hz & Ez). exists z. split; [right; exact Hz|exact Ez].
Qed.

Lemma unique_spec_key : forall l, StronglySorted (fun a b => (key a <= key b)%Z) l ->
  StronglySorted (fun a b => (key a < key b)%Z) (std_unique eqk l) /\
  (forall x, In x (std_unique eqk l) -> In x l) /\
  (forall x, In x l -> exists y, In y (std_unique eqk l) /\ key y = key x).
Proof.
  intros [|p l] H; cbn [std_unique].
  - repeat split; [constructor|intros ? []|intros ? []].
  - destruct (unique_from_spec l p H) as (H1 & H2 & H3). split; [exact H1|]. split.
    + intros x [<-|Hx]; [left; reflexivity|right; apply H2; exact Hx].
    + intros x [<-|Hx]; [exists p; split; [left; reflexivity|reflexivity]|apply H3; exact Hx].
Qed.
End Uniq.

Lemma SS_impl : forall {A} (R S : A -> A -> Prop) l, (forall a b, R a b -> S a b) -> StronglySorted R l -> StronglySorted S l.
Proof.
  intros A R S l H. induction 1 as [|a l H1 IH H2]; constructor; [exact IH|]. eapply Forall_impl; [|exact H2]. intros b. apply H.
Qed.

Lemma sort_indices_sorts : forall vals idx, sort_indices_result vals idx ->
  Permutation (seq 0 (length vals)) idx /\ Permutation vals (map (fun i => nth i vals 0%Z) idx) /\
  StronglySorted Z.le (map (fun i => nth i vals 0%Z) idx).
Proof.
  intros vals idx [H1 H2]. split; [exact H1|]. split.
  - transitivity (map (fun i => nth i vals 0%Z) (seq 0 (length vals))); [|apply Permutation_map; exact H1].
    assert (E : map (fun i => nth i vals 0%Z) (seq 0 (length vals)) = vals).
    { apply (nth_ext _ _ 0%Z 0%Z); [rewrite map_length, seq_length; reflexivity|].
      rewrite map_length, seq_length. intros n Hn.
      rewrite (nth_indep _ 0%Z (nth 0 vals 0%Z)) by (rewrite map_length, seq_length; exact Hn).
      rewrite (map_nth (fun i => nth i vals 0%Z)). rewrite seq_nth by exact Hn. reflexivity. }
    rewrite E. apply Permutation_refl.
  - clear H1. induction H2 as [|a l H1 IH H2]; cbn [map]; constructor; [exact IH|].
    rewrite Forall_map. eapply Forall_impl; [|exact H2]. intros b Hb. apply Z.ltb_ge in Hb. exact Hb.
Qed.

Lemma unique_indices_spec : forall vals idx, sort_indices_result vals idx ->
  let u := unique_indices_of vals idx in
  StronglySorted Z.lt (map (fun i => nth i vals 0%Z) u) /\
  (forall i, In i u -> i < length vals) /\
  (forall v, In v vals -> In v (map (fun i => nth i vals 0%Z) u)).
Proof.
  intros vals idx H u. destruct H as [Hp Hs].
  assert (Hs' : StronglySorted (fun a b => (nth a vals 0 <= nth b vals 0)%Z) idx).
  { eapply SS_impl; [|exact Hs]. intros a b Hab. apply Z.ltb_ge in Hab. exact Hab. }
  destruct (unique_spec_key (fun i => nth i vals 0%Z) idx Hs') as (H1 & H2 & H3).
  fold (unique_indices_of vals idx) in H1, H2, H3. fold u in H1, H2, H3. split; [|split].
  - clear - H1. induction H1 as [|a l H1 IH H2]; cbn [map]; constructor; [exact IH|]. rewrite Forall_map. exact H2.
  - intros i Hi. apply H2 in Hi. apply (Permutation_in _ (Permutation_sym Hp)) in Hi. apply in_seq in Hi. lia.
  - intros v Hv. destruct (In_nth _ _ 0%Z Hv) as (n & Hn & <-).
    destruct (H3 n) as (y & Hy & <-); [apply (Permutation_in _ Hp); apply in_seq; lia|].
    apply (in_map (fun i => nth i vals 0%Z)). exact Hy.
Qed.

(** ** unique *)
Lemma set_insert_in : forall v s x, In x (set_insert v s) <-> x = v \/ In x s.
Proof.
  induction s as [|y s IH]; intros x; cbn [set_insert].
  - simpl. intuition.
  - destruct (Z.ltb_spec v y); [simpl; intuition|]. destruct (Z.ltb_spec y v); simpl.
    + rewrite IH. intuition.
    + assert (v = y) by lia. subst. intuition.
Qed.
Lemma set_insert_sorted : forall v s, StronglySorted Z.lt s -> StronglySorted Z.lt (set_insert v s).
Proof.
  induction s as [|y s IH]; intros H; cbn [set_insert]; [repeat constructor|].
  inversion H as [|? ? H1 H2]; subst.
  destruct (Z.ltb_spec v y).
  - constructor; [exact H|]. constructor; [exact H0|]. rewrite Forall_forall in *. intros x Hx. specialize (H2 x Hx). lia.
  - destruct (Z.ltb_spec y v); [|exact H]. constructor; [apply IH; exact H1|].
    rewrite Forall_forall in *. intros x Hx. apply set_insert_in in Hx. destruct Hx as [->|Hx]; [lia|apply H2; exact Hx].
Qed.
Lemma unique_spec : forall l, StronglySorted Z.lt (unique l) /\ forall x, In x (unique l) <-> In x l.
Proof.
  assert (H : forall l s, StronglySorted Z.lt s ->
    StronglySorted Z.lt (fold_left (fun s v => set_insert v s) l s) /\
    forall x, In x (fold_left (fun s v => set_insert v s) l s) <-> In x s \/ In x l).
  { induction l as [|v l IH]; intros s Hs; cbn [fold_left].
    - split; [exact Hs|simpl; intuition].
    - destruct (IH (set_insert v s) (set_insert_sorted v s Hs)) as [H1 H2]. split; [exact H1|].
      intros x. rewrite H2, set_insert_in. simpl. intuition. }
  intros l. destruct (H l [] ltac:(constructor)) as [H1 H2]. split; [exact H1|].
  intros x. unfold unique. rewrite H2. simpl. intuition.
Qed.

(** ** make_range *)
Open Scope Z_scope.
Lemma int_range_iff : forall v, int_range v = true <-> - 2 ^ 31 <= v < 2 ^ 31.
Proof. intros v. unfold int_range. rewrite andb_true_iff, Z.leb_le, Z.ltb_lt. reflexivity. Qed.

Lemma iota_ok : forall n v, - 2 ^ 31 <= v -> v + Z.of_nat n < 2 ^ 31 ->
  iota_int n v = Ret (map (fun k => v + Z.of_nat k) (seq 0 n)).
Proof.
  induction n as [|n IH]; intros v H1 H2; [reflexivity|]. cbn [iota_int].
  replace (int_range (v + 1)) with true by (symmetry; apply int_range_iff; lia).
  rewrite IH by lia. f_equal. cbn [seq map]. f_equal; [lia|]. rewrite <- seq_shift, map_map. apply map_ext. intros k. lia.
Qed.
Lemma gen_ok : forall n v step, 0 < step -> - 2 ^ 31 <= v -> v + Z.of_nat n * step < 2 ^ 31 ->
  gen_int n v step = Ret (map (fun k => v + Z.of_nat k * step) (seq 1 n)).
Proof.
  induction n as [|n IH]; intros v step Hs H1 H2; [reflexivity|]. cbn [gen_int].
  replace (int_range (v + step)) with true by (symmetry; apply int_range_iff; nia).
  rewrite IH by lia. f_equal. cbn [seq map]. f_equal; [lia|]. rewrite <- (seq_shift n 1), map_map. apply map_ext. intros k. lia.
Qed.

Lemma make_range_ok : forall a b step, - 2 ^ 31 <= a -> a <= b -> b < 2 ^ 31 - 1 -> b - a < 2 ^ 31 -> 0 < step -> (b - a) mod step = 0 ->
  make_range a b step = Ret (map (fun k => a + Z.of_nat k * step) (seq 0 (Z.to_nat ((b - a) / step) + 1))).
Proof.
  intros a b step H1 H2 H3 H4 Hs Hm. unfold make_range.
  destruct (Z.ltb_spec b a); [lia|].
  replace (int_range (b - a)) with true by (symmetry; apply int_range_iff; lia). cbn [negb].
  destruct (Z.eqb_spec step 1) as [->|Hne].
  - rewrite iota_ok by lia. rewrite Z.div_1_r. f_equal. apply map_ext. intros k. lia.
  - destruct (Z.ltb_spec 0 step); [|lia]. cbn [negb]. rewrite Hm. cbn [negb Z.eqb].
    assert (Hq : step * ((b - a) / step) = b - a) by (pose proof (Z.div_mod (b - a) step); lia).
    assert (0 <= (b - a) / step) by (apply Z.div_pos; lia).
    rewrite gen_ok by (try lia; rewrite Z2Nat.id by lia; lia).
    rewrite Nat.add_comm. cbn [Nat.add seq map]. f_equal. f_equal. lia.
Qed.

Lemma make_range_empty : forall a b step, b < a -> make_range a b step = Ret [].
Proof. intros a b step H. unfold make_range. destruct (Z.ltb_spec b a); [reflexivity|lia]. Qed.

(** ** cumulativeSum *)
Lemma partial_sum_spec : forall w l acc, 0 <= w -> forall k, (k < length l)%nat ->
  nth_error (partial_sum w acc l) k = Some ((acc + zsum (firstn (S k) l)) mod 2 ^ w).
Proof.
  intros w l. induction l as [|x r IH]; intros acc Hw k Hk; [simpl in Hk; lia|].
  cbn [partial_sum]. destruct k as [|k].
  - cbn. f_equal. f_equal. lia.
  - cbn [nth_error]. rewrite IH by (simpl in Hk; lia). f_equal. cbn [firstn zsum].
    rewrite Z.add_mod_idemp_l by (apply Z.pow_nonzero; lia). f_equal. destruct r; cbn [firstn zsum]; lia.
Qed.
Lemma partial_sum_length : forall w l acc, length (partial_sum w acc l) = length l.
Proof. intros w. induction l as [|x r IH]; intros acc; cbn; [reflexivity|]. rewrite IH. reflexivity. Qed.

(** ** digit_count *)
Lemma to_int_id : forall v, - 2 ^ 31 <= v < 2 ^ 31 -> to_int v = v.
Proof. intros v H. unfold to_int. rewrite Z.mod_small by lia. lia. Qed.

Lemma digit_loop_spec : forall fuel n d, - 2 ^ 31 < n < 2 ^ 31 -> Z.abs n < 10 ^ Z.of_nat (S fuel) ->
  exists e, digit_loop fuel n d = Ret (d + e - 1) /\ decimal_digits (Z.abs n) e.
Proof.
  induction fuel as [|f IH]; intros n d Hn Hf.
  - exists 1. cbn [digit_loop]. rewrite to_int_id by lia. destruct (Z.eqb_spec n (- 2 ^ 31)); [lia|].
    change (10 ^ Z.of_nat 1) with 10 in Hf. rewrite Z.geb_leb. destruct (Z.leb_spec 10 (Z.abs n)); [lia|].
    split; [f_equal; lia|]. unfold decimal_digits. change (10 ^ 1) with 10. lia.
  - cbn [digit_loop]. rewrite to_int_id by lia. destruct (Z.eqb_spec n (- 2 ^ 31)); [lia|].
    rewrite Z.geb_leb. destruct (Z.leb_spec 10 (Z.abs n)) as [Hge|Hlt].
    + assert (Ha : Z.abs (Z.quot n 10) = Z.abs n / 10).
      { rewrite <- Z.quot_abs by lia. rewrite Z.quot_div_nonneg by lia. reflexivity. }
      assert (Hb : Z.abs n / 10 <= Z.abs n) by (apply Z.div_le_upper_bound; lia).
      destruct (IH (Z.quot n 10) (d + 1)) as (e & He & Hd).
      * pose proof (Z.abs_spec (Z.quot n 10)). pose proof (Z.abs_spec n). lia.
      * rewrite Ha. apply Z.div_lt_upper_bound; [lia|]. rewrite (Nat2Z.inj_succ (S f)), Z.pow_succ_r in Hf by lia. lia.
      * exists (e + 1). split; [rewrite He; f_equal; lia|]. rewrite Ha in Hd. destruct Hd as (D1 & D2 & D3).
        unfold decimal_digits. split; [lia|].
        assert (Hp : 10 ^ (e + 1) = 10 * 10 ^ e) by (rewrite Z.pow_add_r by lia; lia). split.
        -- rewrite Hp. pose proof (Z.div_mod (Z.abs n) 10). pose proof (Z.mod_pos_bound (Z.abs n) 10). lia.
        -- right. replace (e + 1 - 1) with e by lia. destruct D3 as [->|D3]; [exact Hge|].
           assert (10 ^ e = 10 * 10 ^ (e - 1)) by (rewrite <- Z.pow_succ_r by lia; f_equal; lia).
           pose proof (Z.div_mod (Z.abs n) 10). pose proof (Z.mod_pos_bound (Z.abs n) 10). lia.
    + exists 1. split; [f_equal; lia|]. unfold decimal_digits. change (10 ^ 1) with 10. lia.
Qed.

Lemma digit_count_spec : forall n, - 2 ^ 31 < n < 2 ^ 31 ->
  exists e, digit_count n = Ret (if n <? 0 then e + 1 else e) /\ decimal_digits (Z.abs n) e.
Proof.
  intros n Hn. destruct (digit_loop_spec 20 n (if n <? 0 then 2 else 1) Hn) as (e & He & Hd).
  - apply Z.lt_trans with (2 ^ 31); [lia|]. reflexivity.
  - exists e. split; [|exact Hd]. unfold digit_count. rewrite He. f_equal. destruct (n <? 0); lia.
Qed.
