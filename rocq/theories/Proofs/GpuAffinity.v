From Coq Require Import ZArith Reals List Bool Lia Lra Arith Permutation FinFun Setoid.
From Verif Require Import Lib.Grid Model.Kernels Model.Affinity Model.GpuAffinity Spec.Affinity Spec.GpuAffinity Proofs.Kernels Proofs.Affinity.
Import ListNotations.
Open Scope nat_scope.

(* addresses *)
Lemma sh_inj i j : sh i = sh j -> i = j. Proof. unfold sh. intro H. injection H. lia. Qed.
Lemma cn_inj i j : cn i = cn j -> i = j. Proof. unfold cn. intro H. injection H. lia. Qed.
Lemma out_inj i j : out i = out j -> i = j. Proof. unfold out. intro H. injection H. lia. Qed.
Lemma local1_inj i j : local1 i = local1 j -> i = j. Proof. unfold local1. intro H. injection H. lia. Qed.
Lemma local2_inj i j : local2 i = local2 j -> i = j. Proof. unfold local2. intro H. injection H. lia. Qed.
Ltac addrs := repeat match goal with
  | H : sh _ = sh _ |- _ => apply sh_inj in H | H : cn _ = cn _ |- _ => apply cn_inj in H | H : out _ = out _ |- _ => apply out_inj in H
  | H : local1 _ = local1 _ |- _ => apply local1_inj in H | H : local2 _ = local2 _ |- _ => apply local2_inj in H
  | H : _ \/ _ |- _ => destruct H | H : False |- _ => destruct H | H : In _ (_ :: _) |- _ => destruct H | H : In _ [] |- _ => destruct H end; subst; try discriminate; try lia.

(* sums *)
Lemma big_ext n f g : (forall i, i < n -> f i = g i) -> big n f = big n g.
Proof. induction n as [|n IH]; intro H; cbn; [ reflexivity |]. rewrite IH by (intros; apply H; lia). now rewrite H by lia. Qed.
Lemma big_plus n f g : big n (fun i => f i + g i)%R = (big n f + big n g)%R.
Proof. induction n as [|n IH]; cbn; [ lra |]. rewrite IH. lra. Qed.
Lemma big_app n m f : big (n + m) f = (big n f + big m (fun i => f (n + i)%nat))%R.
Proof. induction m as [|m IH]; cbn; [ rewrite Nat.add_0_r; lra |]. rewrite Nat.add_succ_r. cbn. rewrite IH. lra. Qed.
Lemma big_0 n f : (forall i, i < n -> f i = 0%R) -> big n f = 0%R.
Proof. induction n as [|n IH]; intro H; cbn; [ reflexivity |]. rewrite IH by (intros; apply H; lia). rewrite H by lia. lra. Qed.
Lemma big_more n m f : n <= m -> (forall i, n <= i -> f i = 0%R) -> big m f = big n f.
Proof. intros L H. replace m with (n + (m - n)) by lia. rewrite big_app, (big_0 (m - n)); [ lra |]. intros. apply H. lia. Qed.

(* halving *)
Lemma reached_out : forall f n i, 0 < n -> n <= i -> reached f n i = false.
Proof.
  induction f as [|f IH]; intros n i N I; cbn [reached].
  - apply Nat.eqb_neq. lia.
  - destruct (Nat.eqb_spec (n / 2) 0) as [E|E]; [ apply Nat.eqb_neq; lia |]. pose proof (Nat.div_mod n 2 ltac:(lia)). pose proof (Nat.mod_upper_bound n 2 ltac:(lia)). rewrite !IH by lia. apply andb_false_r.
Qed.
Lemma half_double n : 2 * n / 2 = n.
Proof. rewrite Nat.mul_comm. apply Nat.div_mul. lia. Qed.
Lemma reached_power : forall k f i, k <= f -> i < 2 ^ k -> reached f (2 ^ k) i = true.
Proof.
  induction k as [|k IH]; intros f i F I.
  - change (2 ^ 0) with 1 in *. assert (i = 0) by lia. subst. now destruct f.
  - destruct f as [|f]; [ lia |]. assert (0 < 2 ^ k) by (apply Nat.neq_0_lt_0, Nat.pow_nonzero; lia). cbn [reached]. replace (2 ^ S k / 2) with (2 ^ k) by (change (2 ^ S k) with (2 * 2 ^ k); now rewrite half_double). cbv zeta. rewrite (proj2 (Nat.eqb_neq (2 ^ k) 0)) by lia.
    change (2 ^ S k) with (2 * 2 ^ k) in I. destruct (Nat.leb_spec (2 ^ k) i).
    + rewrite (IH f (i - 2 ^ k)) by lia. apply orb_true_r.
    + now rewrite IH by lia.
Qed.
Lemma reached_thrice : forall k f i, k < f -> i < 3 * 2 ^ k -> reached f (3 * 2 ^ k) i = two_thirds i.
Proof.
  induction k as [|k IH]; intros f i F I.
  - destruct f as [|f]; [ lia |]. change (3 * 2 ^ 0) with 3 in *. assert (i = 0 \/ i = 1 \/ i = 2) as [->|[->| ->]] by lia; cbn; destruct f; reflexivity.
  - destruct f as [|f]; [ lia |]. assert (0 < 2 ^ k) by (apply Nat.neq_0_lt_0, Nat.pow_nonzero; lia). assert (E : 3 * 2 ^ S k = 2 * (3 * 2 ^ k)) by (cbn; lia). rewrite E in *. cbn [reached]. rewrite half_double. cbv zeta.
    rewrite (proj2 (Nat.eqb_neq (3 * 2 ^ k) 0)) by lia. destruct (Nat.leb_spec (3 * 2 ^ k) i).
    + rewrite (reached_out f (3 * 2 ^ k) i), (IH f (i - 3 * 2 ^ k)) by lia. cbn [orb andb]. unfold two_thirds. replace i with (i - 3 * 2 ^ k + 2 ^ k * 3) at 2 by lia. now rewrite Nat.mod_add by lia.
    + rewrite IH by lia. cbn [andb]. now rewrite orb_false_r.
Qed.
Lemma added_power n k : n = 2 ^ k -> forall i, added n i = true.
Proof. intros -> i. unfold added. apply reached_power; [ apply Nat.lt_le_incl, Nat.pow_gt_lin_r; lia |]. apply Nat.mod_upper_bound. apply Nat.pow_nonzero. lia. Qed.
Lemma added_thrice n k : n = 3 * 2 ^ k -> forall i, added n i = two_thirds i.
Proof.
  intros -> i. assert (0 < 2 ^ k) by (apply Nat.neq_0_lt_0, Nat.pow_nonzero; lia). unfold added. rewrite reached_thrice; [| pose proof (Nat.pow_gt_lin_r 2 k); lia | apply Nat.mod_upper_bound; lia ].
  unfold two_thirds. do 2 f_equal. pose proof (Nat.div_mod i (3 * 2 ^ k) ltac:(lia)) as E. rewrite E at 2. replace (3 * 2 ^ k * (i / (3 * 2 ^ k)) + i mod (3 * 2 ^ k)) with (i mod (3 * 2 ^ k) + 2 ^ k * (i / (3 * 2 ^ k)) * 3) by lia. now rewrite Nat.mod_add by lia.
Qed.

Section Tree.
Context (n : nat) (rounds : nat -> list program) (ad : nat -> addr) (kept : addr -> Prop).
Context (Round : forall s m m', 2 * s <= n -> kernel n (rounds s) m m' -> (forall i, i < s -> m' (ad i) = (m (ad i) + m (ad (i + s)%nat))%R) /\ (forall a, kept a -> m' a = m a)).
Lemma tree_any : forall f h m m', 0 < h -> h <= n -> kernel n (flat_map rounds (halves f h)) m m' ->
  m' (ad 0) = big h (fun i => if reached f h i then m (ad i) else 0%R) /\ (forall a, kept a -> m' a = m a).
Proof.
  assert (Z : forall h m, 0 < h -> m (ad 0) = big h (fun i => if i =? 0 then m (ad i) else 0%R)).
  { intros h m H. rewrite (big_more 1); [ cbn; lra | lia |]. intros i I. now rewrite (proj2 (Nat.eqb_neq i 0)) by lia. }
  induction f as [|f IH]; intros h m m' H L K; cbn [halves reached] in *; cbv zeta in *.
  - apply kernel_nil in K. subst. split; [| reflexivity ]. now apply Z.
  - destruct (Nat.eqb_spec (h / 2) 0) as [E|E].
    + apply kernel_nil in K. subst. split; [| reflexivity ]. now apply Z.
    + set (s := h / 2) in *. pose proof (Nat.div_mod h 2 ltac:(lia)) as D. fold s in D. pose proof (Nat.mod_upper_bound h 2 ltac:(lia)). cbn [flat_map] in K.
      apply kernel_app in K. destruct K as (m1 & A & B). apply Round in A; [| lia ]. destruct A as [A A']. apply IH in B; [| lia | lia ]. destruct B as [B B']. split.
      * rewrite B. rewrite (big_more (s + s) h); [| lia |].
        -- rewrite big_app, <- big_plus. apply big_ext. intros i I. rewrite A by assumption. rewrite (Nat.add_comm s i), Nat.add_sub. rewrite (proj2 (Nat.leb_gt s i)), (proj2 (Nat.leb_le s (i + s))) by lia. cbn [andb]. rewrite orb_false_r.
           replace (reached f s (i + s)) with false by (symmetry; apply reached_out; lia). cbn [orb]. destruct (reached f s i); lra.
        -- intros i I. rewrite !reached_out by lia. now rewrite andb_false_r.
      * intros a Q. rewrite B' by assumption. now apply A'.
Qed.
Definition adds (w : nat -> bool) : Prop := 0 < n /\ forall i, w i = added n i.
Lemma tree w m m' : adds w -> kernel n (flat_map rounds (halves n n)) m m' -> m' (ad 0) = big n (fun i => if w i then m (ad i) else 0%R) /\ (forall a, kept a -> m' a = m a).
Proof.
  intros [P W] K. apply tree_any in K; [| assumption | lia ]. destruct K as [A B]. split; [| exact B ]. rewrite A. apply big_ext. intros i I. rewrite W. unfold added. now rewrite Nat.mod_small by assumption.
Qed.
End Tree.

(* one step between barriers, for programs without races *)
Ltac alone_simp := unfold alone; cbn [fold_left exec fst snd].
Lemma stores_writes (v : nat -> R) (a : nat -> addr) l : writes (flat_map (fun j => [Const (v j); Store (a j)]) l) = map a l.
Proof. induction l as [|j l IH]; cbn; [ reflexivity | now rewrite <- IH ]. Qed.
Lemma stores_reads (v : nat -> R) (a : nat -> addr) l : reads (flat_map (fun j => [Const (v j); Store (a j)]) l) = [].
Proof. induction l as [|j l IH]; cbn; [ reflexivity | exact IH ]. Qed.
Lemma stores_alone (v : nat -> R) (a : nat -> addr) l : (forall i j, a i = a j -> i = j) -> forall m r j, In j l -> fst (alone (flat_map (fun j => [Const (v j); Store (a j)]) l) m r) (a j) = v j.
Proof.
  intro Inj. induction l as [|i l IH]; intros m r j H; [ destruct H |]. cbn [flat_map app]. rewrite !alone_cons. cbn [exec fst snd].
  destruct (in_dec Nat.eq_dec j l) as [L|L]; [ now apply IH |]. destruct H as [->|H]; [| contradiction ].
  rewrite alone_keep; [ apply set_same |]. rewrite stores_writes, in_map_iff. intros (x & E & X). apply Inj in E. now subst.
Qed.

Lemma wide_step n s m m' : kernel n (wide_round s) m m' ->
  (forall i, i < n -> m' (sh i) = (m (sh i) + m (sh (i + s)%nat))%R) /\ (forall a, fst a <> 0%Z /\ fst a <> 3%Z -> m' a = m a).
Proof.
  intro K. apply kernel_two in K. destruct K as (m1 & H2 & H5). apply phase_free in H2; [| intros t u a T U N; cbn; intros; addrs; intro; addrs ]. apply phase_free in H5; [| intros t u a T U N; cbn; intros; addrs; intro; addrs ].
  destruct H2 as [A A']. destruct H5 as [B B']. split.
  - intros i I. rewrite (B i (sh i) I) by (cbn; auto). alone_simp. rewrite set_same. rewrite (A i (local1 i) I) by (cbn; auto). alone_simp. rewrite set_same. rewrite (A' (sh i)); [ reflexivity |]. intros t T. cbn. intro; addrs.
  - intros a [N0 N3]. rewrite B' by (intros t T; cbn; intro; addrs; cbn in *; congruence). apply A'. intros t T; cbn; intro; addrs; cbn in *; congruence.
Qed.
Lemma half_step n s m m' : 2 * s <= n -> kernel n (half_round s) m m' ->
  (forall i, i < s -> m' (sh i) = (m (sh i) + m (sh (i + s)%nat))%R) /\ (forall a, fst a <> 0%Z /\ fst a <> 3%Z -> m' a = m a).
Proof.
  intros L K. apply kernel_one in K. rename K into H2. apply phase_free in H2.
  - destruct H2 as [A A']. split.
    + intros i I. rewrite (A i) by (rewrite (proj2 (Nat.ltb_lt _ _) I) || idtac; cbn; auto; lia). rewrite (proj2 (Nat.ltb_lt _ _) I). alone_simp. now rewrite set_same.
    + intros a [N0 N3]. apply A'. intros t T. destruct (t <? s); cbn; intro; addrs. cbn in N0. congruence.
  - intros t u a T U N. destruct (Nat.ltb_spec t s); destruct (Nat.ltb_spec u s); cbn; intros; addrs; intro; addrs.
Qed.
Lemma patch_step n s m m' : kernel n (patch_round n s) m m' -> 2 * s <= n ->
  (forall i, i < s -> m' (sh i) = (m (sh i) + m (sh (i + s)%nat))%R) /\ (forall i, i < s -> m' (cn i) = (m (cn i) + m (cn (i + s)%nat))%R).
Proof.
  intros K L. apply kernel_two in K. destruct K as (m1 & H2 & H5). apply phase_free in H2; [| intros t u a T U N; destruct (t + s <? n); destruct (u + s <? n); cbn; intros; addrs; intro; addrs ].
  apply phase_free in H5; [| intros t u a T U N; cbn; intros; addrs; intro; addrs ].
  destruct H2 as [A A']. destruct H5 as [B B'].
  assert (W : forall a t, fst a <> 3%Z -> fst a <> 4%Z -> t < n -> ~ In a (writes (if t + s <? n then [Load (cn (t + s)); Store (local1 t); Load (sh (t + s)); Store (local2 t)] else [Const 0; Store (local1 t); Const 0; Store (local2 t)]))).
  { intros a t N3 N4 T. destruct (t + s <? n); cbn; intro; addrs; cbn in *; congruence. }
  assert (Keep : forall a, fst a <> 3%Z -> fst a <> 4%Z -> m1 a = m a) by (intros; apply A'; intros t T; now apply W).
  assert (V : forall i, i < s -> m1 (local1 i) = m (cn (i + s)%nat) /\ m1 (local2 i) = m (sh (i + s)%nat)).
  { intros i I. assert (T : i + s <? n = true) by (apply Nat.ltb_lt; lia). split.
    - rewrite (A i) by (rewrite ?T; cbn; auto; lia). rewrite T. alone_simp. rewrite set_other by discriminate. now rewrite set_same.
    - rewrite (A i) by (rewrite ?T; cbn; auto; lia). rewrite T. alone_simp. rewrite set_same. now rewrite set_other by discriminate. }
  split; intros i I.
  - rewrite (B i) by (cbn; auto; lia). alone_simp. rewrite set_same. rewrite !set_other by discriminate. rewrite (proj2 (V i I)), Keep by discriminate. reflexivity.
  - rewrite (B i) by (cbn; auto; lia). alone_simp. rewrite set_other by discriminate. rewrite set_same. rewrite (proj1 (V i I)), Keep by discriminate. reflexivity.
Qed.

Lemma big_grid n k g : big n (fun t => big k (fun j => g (t + n * j))) = big (n * k) g.
Proof.
  induction k as [|k IH].
  - rewrite Nat.mul_0_r. cbn. now apply big_0.
  - cbn [big]. rewrite big_plus, IH, Nat.mul_succ_r, big_app. f_equal. apply big_ext. intros i _. now rewrite Nat.add_comm.
Qed.
Lemma adds_period n w : adds n w -> forall t j, w (t + n * j) = w t.
Proof. intros [P W] t j. rewrite !W. unfold added. now rewrite (Nat.mul_comm n), Nat.mod_add by lia. Qed.
Lemma adds_pos n w : adds n w -> 0 < n.
Proof. now intros [H _]. Qed.
Lemma div_up_spec a b : 0 < b -> a <= b * div_up a b /\ (0 < a -> 0 < div_up a b).
Proof.
  intro B. unfold div_up. pose proof (Nat.div_mod (a + b - 1) b ltac:(lia)) as E. pose proof (Nat.mod_upper_bound (a + b - 1) b ltac:(lia)). split; [ lia |].
  intro A. apply Nat.div_str_pos. lia.
Qed.

Lemma gather_alone n t m : 0 < n -> forall l, fst (alone (flat_map (fun j => [Load (sh t); Add (sh (t + n * j)); Store (sh t)]) (seq 1 l)) m 0%R) (sh t) = big (S l) (fun j => m (sh (t + n * j))) /\
  forall a, a <> sh t -> fst (alone (flat_map (fun j => [Load (sh t); Add (sh (t + n * j)); Store (sh t)]) (seq 1 l)) m 0%R) a = m a.
Proof.
  intro P. induction l as [|l [A B]].
  - split; [| reflexivity ]. cbn. rewrite Nat.mul_0_r, Nat.add_0_r. lra.
  - rewrite seq_S, flat_map_app, alone_app. cbn [flat_map app]. set (q := alone _ m 0%R) in *. rewrite !alone_cons. cbn [exec fst snd alone fold_left]. split.
    + rewrite set_same, A, B; [ reflexivity |]. intro E. addrs.
    + intros a N. rewrite set_other by assumption. now apply B.
Qed.
Lemma gather_writes n size t a : In a (writes (gather n size t)) -> a = sh t.
Proof. unfold gather, writes. rewrite in_flat_map. intros (i & H & I). rewrite in_flat_map in H. destruct H as (j & _ & H). cbn in H. destruct H as [<-|[<-|[<-|[]]]]; cbn in I; destruct I as [<-|[]] || destruct I; auto. Qed.
Lemma gather_writes_in n size t : 1 < div_up size n -> In (sh t) (writes (gather n size t)).
Proof.
  intro H. unfold gather, writes. apply in_flat_map. exists (Store (sh t)). split; [| now left ]. apply in_flat_map. exists 1. split; [ apply in_seq; lia |]. cbn. auto.
Qed.
Lemma gather_reads n size t a : In a (reads (gather n size t)) -> exists j, a = sh (t + n * j).
Proof.
  unfold gather, reads. rewrite in_flat_map. intros (i & H & I). rewrite in_flat_map in H. destruct H as (j & _ & H). cbn in H.
  destruct H as [<-|[<-|[<-|[]]]]; cbn in I; destruct I as [<-|[]] || destruct I; [ exists 0; f_equal; lia | exists j; reflexivity ].
Qed.
Lemma gather_step n size m m' : 0 < n -> 1 < div_up size n -> phase n (gather n size) m m' ->
  (forall t, t < n -> m' (sh t) = big (div_up size n) (fun j => m (sh (t + n * j)))) /\ (forall a, fst a <> 0%Z -> m' a = m a).
Proof.
  intros P D K. apply phase_free in K.
  - destruct K as [A B]. split.
    + intros t T. rewrite (A t _ T) by now apply gather_writes_in. unfold gather. rewrite (proj1 (gather_alone n t m P _)). now replace (S (div_up size n - 1)) with (div_up size n) by lia.
    + intros a N. apply B. intros t T I. apply gather_writes in I. subst. now apply N.
  - intros t u a T U N W R. apply gather_writes in W. subst. apply in_app_iff in R. destruct R as [R|R].
    + apply gather_reads in R. destruct R as (j & E). apply sh_inj in E. destruct j; [ lia |]. nia.
    + apply gather_writes in R. apply sh_inj in R. congruence.
Qed.

Lemma reduce_step n size w m m' : adds n w -> 0 < size -> kernel n (reduce n size) m m' ->
  m' (sh 0) = big (n * div_up size n) (fun i => if w i then m (sh i) else 0%R) /\ (forall a, fst a <> 0%Z /\ fst a <> 3%Z -> m' a = m a).
Proof.
  intros W S K. pose proof (adds_pos n w W) as P. destruct (div_up_spec size n P) as [_ D]. specialize (D S). unfold reduce in K. destruct (Nat.ltb_spec n (div_up size n * n)) as [L|L].
  - assert (D2 : 1 < div_up size n) by nia. apply kernel_cons in K. destruct K as (m1 & A & B). apply gather_step in A; [| assumption | assumption ]. destruct A as [A A'].
    apply (tree n wide_round sh (fun a => fst a <> 0%Z /\ fst a <> 3%Z)) with (w := w) in B.
    + destruct B as [B B']. split.
      * rewrite B, <- big_grid. apply big_ext. intros t T. rewrite A by assumption. destruct (w t) eqn:E.
        -- apply big_ext. intros j _. now rewrite (adds_period n w W), E.
        -- symmetry. apply big_0. intros j _. now rewrite (adds_period n w W), E.
      * intros a N. rewrite B' by assumption. apply A'. tauto.
    + intros s m0 m0' H1 K. apply wide_step in K. destruct K as [C C']. split; [ intros i I; apply C; lia | exact C' ].
    + exact W.
  - assert (D1 : div_up size n = 1) by nia. rewrite D1, Nat.mul_1_r.
    apply (tree n half_round sh (fun a => fst a <> 0%Z /\ fst a <> 3%Z)) with (w := w) in K; [ exact K | intros; now apply half_step with (n := n) | exact W ].
Qed.

Lemma fill_writes n size d t : writes (fill n size d t) = map (fun j => sh (n * j + t)) (seq 0 (div_up size n)).
Proof. unfold fill. apply (stores_writes (fun j => if n * j + t <? size then d (n * j + t) else 0%R) (fun j => sh (n * j + t))). Qed.
Lemma fill_reads n size d t : reads (fill n size d t) = [].
Proof. unfold fill. apply (stores_reads (fun j => if n * j + t <? size then d (n * j + t) else 0%R) (fun j => sh (n * j + t))). Qed.
Lemma fill_alone n size d t m r j : 0 < n -> j < div_up size n -> fst (alone (fill n size d t) m r) (sh (n * j + t)) = if n * j + t <? size then d (n * j + t) else 0%R.
Proof.
  intros P J. unfold fill. apply (stores_alone (fun j => if n * j + t <? size then d (n * j + t) else 0%R) (fun j => sh (n * j + t))); [| apply in_seq; lia ].
  intros a b E. addrs. nia.
Qed.
Lemma writes_app p q : writes (p ++ q) = writes p ++ writes q. Proof. apply flat_map_app. Qed.
Lemma reads_app p q : reads (p ++ q) = reads p ++ reads q. Proof. apply flat_map_app. Qed.
Lemma emit_writes k t a : In a (writes (emit k t)) -> t = 0 /\ exists j, k = Some j /\ a = out j.
Proof. unfold emit. destruct k as [j|]; [| intros [] ]. destruct (Nat.eqb_spec t 0); [| intros [] ]. cbn. intro; addrs. eauto. Qed.
Lemma emit_reads k t a : In a (reads (emit k t)) -> t = 0 /\ a = sh 0.
Proof. unfold emit. destruct k as [j|]; [| intros [] ]. destruct (Nat.eqb_spec t 0); [| intros [] ]. cbn. intro; addrs. auto. Qed.
Lemma fill_step n size d k m m' : 0 < n -> phase n (fun t => emit k t ++ fill n size d t) m m' ->
  (forall i, i < n * div_up size n -> m' (sh i) = if i <? size then d i else 0%R) /\
  (forall j, m' (out j) = match k with Some k => if j =? k then sqrt (m (sh 0)) else m (out j) | None => m (out j) end).
Proof.
  intros P K. apply phase_free in K.
  - destruct K as [A B]. split.
    + intros i I. pose proof (Nat.div_mod i n ltac:(lia)) as E. pose proof (Nat.mod_upper_bound i n ltac:(lia)) as M. assert (J : i / n < div_up size n) by (apply Nat.div_lt_upper_bound; lia).
      rewrite (A (i mod n) _ M).
      * rewrite alone_app. pose proof (fill_alone n size d (i mod n) (fst (alone (emit k (i mod n)) m 0%R)) (snd (alone (emit k (i mod n)) m 0%R)) (i / n) P J) as X. rewrite <- E in X. exact X.
      * rewrite writes_app, in_app_iff. right. rewrite fill_writes, in_map_iff. exists (i / n). rewrite <- E. split; [ reflexivity | apply in_seq; lia ].
    + intro j. assert (F : forall t q m0 r0, fst (alone (fill n size d t) m0 r0) (out q) = m0 (out q)) by (intros; apply alone_keep; rewrite fill_writes, in_map_iff; intros (x & X & _); discriminate).
      assert (U : (match k with Some k => j <> k | None => True end) -> m' (out j) = m (out j)).
      { intro N. apply B. intros t T I. rewrite writes_app, in_app_iff, fill_writes, in_map_iff in I. destruct I as [I | (x & X & _)]; [| discriminate ].
        apply emit_writes in I. destruct I as (_ & q & -> & O). apply out_inj in O. congruence. }
      destruct k as [k|]; [| now apply U ]. destruct (Nat.eqb_spec j k) as [->|N]; [| now apply U ].
      rewrite (A 0 _ P); [| rewrite writes_app, in_app_iff; left; cbn; auto ]. rewrite alone_app, F. cbn [emit Nat.eqb]. alone_simp. now rewrite set_same.
  - intros t u a T U N W R. rewrite writes_app, in_app_iff, fill_writes, in_map_iff in W. rewrite reads_app, writes_app, fill_reads, fill_writes, !in_app_iff, in_map_iff in R.
    destruct W as [W | (x & <- & X)].
    + apply emit_writes in W. destruct W as (-> & j & -> & ->). destruct R as [[R|[]]|[R|(y & Y & _)]]; [ apply emit_reads in R; destruct R; discriminate | apply emit_writes in R; destruct R; congruence | discriminate ].
    + destruct R as [[R|[]]|[R|(y & Y & _)]].
      * apply emit_reads in R. destruct R as [-> R]. addrs.
      * apply emit_writes in R. destruct R as (_ & j & _ & R). discriminate.
      * addrs. assert (x = y) by nia. subst. lia.
Qed.
Lemma emit_step n k m m' : 0 < n -> phase n (emit k) m m' -> forall j, m' (out j) = match k with Some k => if j =? k then sqrt (m (sh 0)) else m (out j) | None => m (out j) end.
Proof.
  intros P K j. apply phase_free in K.
  - destruct K as [A B].
    assert (U : (match k with Some k => j <> k | None => True end) -> m' (out j) = m (out j)).
    { intro N. apply B. intros t T I. apply emit_writes in I. destruct I as (_ & q & -> & O). apply out_inj in O. congruence. }
    destruct k as [k|]; [| now apply U ]. destruct (Nat.eqb_spec j k) as [->|N]; [| now apply U ].
    rewrite (A 0 _ P); [| cbn; auto ]. cbn [emit Nat.eqb]. alone_simp. now rewrite set_same.
  - intros t u a T U N W R. apply emit_writes in W. destruct W as (-> & q & -> & ->). apply in_app_iff in R. destruct R as [R|R]; [ apply emit_reads in R; destruct R; discriminate | apply emit_writes in R; destruct R; congruence ].
Qed.

(* the distance that comes out, of the squared differences d *)
Definition distance (w : nat -> bool) (size : nat) (d : nat -> R) : R := sqrt (big size (fun i => if w i then d i else 0%R)).
Lemma distances_out n size w diff : adds n w -> 0 < size -> forall ks k m m', NoDup ks -> (match k with Some k => ~ In k ks | None => True end) -> kernel n (distances n size diff ks k) m m' ->
  forall j, m' (out j) = if in_dec Nat.eq_dec j ks then match diff j with Some d => distance w size d | None => m (out j) end
                         else match k with Some k => if j =? k then sqrt (m (sh 0)) else m (out j) | None => m (out j) end.
Proof.
  intros W S. pose proof (adds_pos n w W) as P. induction ks as [|x ks IH]; intros k m m' ND NI K j; cbn [distances] in K.
  - apply kernel_one in K. rewrite (emit_step n k m m' P K j). now destruct (in_dec Nat.eq_dec j []).
  - inversion ND as [|? ? NX ND']. subst. destruct (diff x) as [d|] eqn:E.
    + apply kernel_cons in K. destruct K as (m1 & A & K). apply kernel_app in K. destruct K as (m2 & B & C). apply fill_step in A; [| assumption ]. destruct A as [A A'].
      apply (reduce_step n size w) in B; [| assumption | assumption ]. destruct B as [B B']. rewrite (IH (Some x) m2 m' ND' NX C j).
      assert (V : sqrt (m2 (sh 0)) = distance w size d).
      { rewrite B. unfold distance. f_equal. destruct (div_up_spec size n P) as [Q _]. rewrite (big_ext _ _ (fun i => if i <? size then if w i then d i else 0%R else 0%R)).
        - rewrite (big_more size); [| exact Q |].
          + apply big_ext. intros i I. now rewrite (proj2 (Nat.ltb_lt _ _) I).
          + intros i I. now rewrite (proj2 (Nat.ltb_ge _ _) I).
        - intros i I. rewrite A by assumption. destruct (i <? size), (w i); reflexivity. }
      rewrite !(B' (out j)) by (split; discriminate). rewrite A'.
      destruct (in_dec Nat.eq_dec j ks) as [J|J]; destruct (in_dec Nat.eq_dec j (x :: ks)) as [J'|J'].
      * destruct (diff j); [ reflexivity |]. destruct k as [k|]; [| reflexivity ]. destruct (Nat.eqb_spec j k) as [->|]; [ contradiction | reflexivity ].
      * exfalso. apply J'. now right.
      * destruct J' as [<-|J']; [| contradiction ]. rewrite Nat.eqb_refl, E. exact V.
      * destruct (Nat.eqb_spec j x) as [->|N]; [ exfalso; apply J'; now left | reflexivity ].
    + rewrite (IH k m m' ND') with (j := j); [| destruct k as [k|]; [ intro; apply NI; now right | exact I ] | exact K ].
      destruct (in_dec Nat.eq_dec j ks) as [J|J]; destruct (in_dec Nat.eq_dec j (x :: ks)) as [J'|J']; [ reflexivity | exfalso; apply J'; now right | | reflexivity ].
      destruct J' as [<-|J']; [| contradiction ]. rewrite E. destruct k as [k|]; [| reflexivity ]. destruct (Nat.eqb_spec x k) as [<-|]; [ exfalso; apply NI; now left | reflexivity ].
Qed.

Lemma defaults_writes n m0 f t a : In a (writes (defaults n m0 f t)) <-> exists j, j < div_up m0 n /\ a = out (n * j + t) /\ n * j + t < m0 /\ f (n * j + t) = true.
Proof.
  unfold defaults, writes. rewrite in_flat_map. split.
  - intros (i & H & I). rewrite in_flat_map in H. destruct H as (j & J & H). apply in_seq in J. destruct (Nat.ltb_spec (n * j + t) m0); [| destruct H ]. destruct (f (n * j + t)) eqn:F; [| destruct H ].
    cbn in H. destruct H as [<-|[<-|[]]]; cbn in I; destruct I as [<-|[]] || destruct I. exists j. repeat split; auto; lia.
  - intros (j & J & -> & L & F). exists (Store (out (n * j + t))). split; [| now left ]. apply in_flat_map. exists j. split; [ apply in_seq; lia |]. rewrite (proj2 (Nat.ltb_lt _ _) L), F. cbn. auto.
Qed.
Lemma defaults_alone n m0 f t : 0 < n -> forall l m r j, In j l -> n * j + t < m0 -> f (n * j + t) = true ->
  fst (alone (flat_map (fun j => if ((n * j + t <? m0) && f (n * j + t))%bool then [Const (-1); Store (out (n * j + t))] else []) l) m r) (out (n * j + t)) = (-1)%R.
Proof.
  intros P l. induction l as [|x l IH]; intros m r j J L F; [ destruct J |]. cbn [flat_map]. rewrite alone_app. destruct (in_dec Nat.eq_dec j l) as [I|I]; [ now apply IH |]. destruct J as [->|J]; [| contradiction ].
  rewrite alone_keep.
  - rewrite (proj2 (Nat.ltb_lt _ _) L), F. cbn [andb]. alone_simp. apply set_same.
  - unfold writes. rewrite in_flat_map. intros (i & H & W). rewrite in_flat_map in H. destruct H as (y & Y & H). destruct ((n * y + t <? m0) && f (n * y + t))%bool; [| destruct H ].
    cbn in H. destruct H as [<-|[<-|[]]]; cbn in W; destruct W as [W|[]] || destruct W. addrs. assert (y = j) by nia. now subst.
Qed.
Lemma defaults_step n m0 f m m' : 0 < n -> phase n (defaults n m0 f) m m' -> forall k, k < m0 -> m' (out k) = if f k then (-1)%R else m (out k).
Proof.
  intros P K k L. apply phase_free in K.
  - destruct K as [A B]. destruct (f k) eqn:F.
    + pose proof (Nat.div_mod k n ltac:(lia)) as E. pose proof (Nat.mod_upper_bound k n ltac:(lia)) as M. destruct (div_up_spec m0 n P) as [Q _]. assert (J : k / n < div_up m0 n) by (apply Nat.div_lt_upper_bound; lia).
      rewrite (A (k mod n) _ M).
      * pose proof (defaults_alone n m0 f (k mod n) P (seq 0 (div_up m0 n)) m 0%R (k / n)) as X. rewrite <- E in X. apply X; [ apply in_seq; lia | assumption | assumption ].
      * apply defaults_writes. exists (k / n). rewrite <- E. auto.
    + apply B. intros t T I. apply defaults_writes in I. destruct I as (j & _ & E & _ & G). apply out_inj in E. rewrite <- E in G. congruence.
  - intros t u a T U N W R. apply defaults_writes in W. destruct W as (j & _ & -> & _). apply in_app_iff in R. destruct R as [R|R].
    + unfold reads, defaults in R. rewrite in_flat_map in R. destruct R as (i & H & I). rewrite in_flat_map in H. destruct H as (y & Y & H). destruct ((n * y + u <? m0) && f (n * y + u))%bool; [| destruct H ].
      cbn in H. destruct H as [<-|[<-|[]]]; cbn in I; destruct I.
    + apply defaults_writes in R. destruct R as (y & _ & E & _). addrs. assert (j = y) by nia. subst. lia.
Qed.

Lemma pixel_entry cols offs size roi1 roi2 d1 d2 n w m m' r c : adds n w -> 0 < size -> kernel n (pixel_kernel cols offs size roi1 roi2 d1 d2 n r c) m m' ->
  forall k, k < length offs -> let o := (c + nth k offs 0)%Z in
  m' (out k) = if matchable cols 0 (wanted roi1) (wanted roi2) (nth k offs 0%Z) r c then distance w size (squared (d1 (r, c)) (d2 (r, o))) else (-1)%R.
Proof.
  intros W S Q k K o. pose proof (adds_pos n w W) as P. unfold pixel_kernel in Q.
  assert (O1 : off roi1 r c = negb (wanted roi1 r c)) by (unfold off, wanted; now destruct roi1).
  assert (O2 : off roi2 r o = negb (wanted roi2 r o)) by (unfold off, wanted; now destruct roi2).
  unfold matchable. fold o. rewrite Z.sub_0_r. destruct (off roi1 r c) eqn:E.
  - apply kernel_one in Q. rewrite (defaults_step _ _ _ _ _ P Q k K). destruct (wanted roi1 r c); [ discriminate | reflexivity ].
  - apply kernel_cons in Q. destruct Q as (m1 & A & B). rewrite (distances_out n size w _ W S _ None m1 m' (seq_NoDup _ _) I B k).
    destruct (in_dec Nat.eq_dec k (seq 0 (length offs))) as [_|N]; [| exfalso; apply N; apply in_seq; lia ].
    assert (D := defaults_step _ _ _ _ _ P A k K). destruct (wanted roi1 r c); [| discriminate ]. cbn [andb]. unfold compared in *. fold o in D |- *. rewrite O2 in *. rewrite negb_involutive in *.
    destruct ((0 <=? o)%Z && (o <? cols)%Z && wanted roi2 r o) eqn:F; [ reflexivity | exact D ].
Qed.
Lemma raw_gpu_entry rows cols offs size roi1 roi2 d1 d2 n w raw : adds n w -> 0 < size -> raw_gpu rows cols offs size roi1 roi2 d1 d2 n raw ->
  forall r c k, (0 <= r < rows)%Z -> (0 <= c < cols)%Z -> k < length offs -> let o := (c + nth k offs 0)%Z in
  raw (r, c, k) = if matchable cols 0 (wanted roi1) (wanted roi2) (nth k offs 0%Z) r c then distance w size (squared (d1 (r, c)) (d2 (r, o))) else (-1)%R.
Proof. intros W S G r c k R C K. destruct (G r c R C) as (m & m' & Q & V). rewrite (V k K). now apply (pixel_entry cols offs size roi1 roi2 d1 d2 n w m m' r c). Qed.

Lemma big_first n f : big (S n) f = (f 0%nat + big n (fun i => f (S i)))%R.
Proof. change (S n) with (1 + n). rewrite big_app. cbn. lra. Qed.
Lemma sum_big (g : R * R -> R) : forall a b, length a = length b -> sum g (combine a b) = big (length a) (fun i => g (nth i a 0%R, nth i b 0%R)).
Proof.
  induction a as [|x a IH]; intros [|y b] L; try discriminate; [ reflexivity |]. injection L as L. cbn [length]. rewrite big_first. cbn [combine nth]. rewrite sum_cons, IH by assumption. reflexivity.
Qed.
Lemma distance_l2 w size a b : (forall i, w i = true) -> length a = size -> length b = size -> distance w size (squared a b) = l2 a b.
Proof.
  intros W A B. rewrite l2_sum, sum_big by congruence. unfold distance. rewrite A. f_equal. apply big_ext. intros i _. rewrite W. reflexivity.
Qed.
Lemma distance_pos w size d : (0 <= distance w size d)%R.
Proof. apply sqrt_pos. Qed.

Lemma big_filter (f : nat -> R) (q : nat -> bool) n : big n (fun i => if q i then f i else 0%R) = sum f (filter q (seq 0 n)).
Proof.
  induction n as [|n IH]; [ reflexivity |]. rewrite seq_S, filter_app. cbn [big filter]. rewrite IH. unfold sum. rewrite fold_right_app. rewrite Nat.add_0_l. destruct (q n).
  - cbn [fold_right]. generalize (filter q (seq 0 n)). intro l. induction l as [|x l IHl]; cbn; [ lra | rewrite <- IHl; lra ].
  - cbn [fold_right]. lra.
Qed.
Lemma sum_one {A} (l : list A) : sum (fun _ => 1%R) l = INR (length l).
Proof. induction l as [|x l IH]; [ reflexivity |]. rewrite sum_cons, IH. cbn [length]. rewrite S_INR. lra. Qed.

Lemma odd_pos p : Nat.odd p = true -> 0 < p.
Proof. destruct p; [ discriminate | lia ]. Qed.
Lemma odd_half p : Nat.odd p = true -> Z.of_nat p = (2 * (Z.of_nat p / 2) + 1)%Z.
Proof. intro O. apply Nat.odd_spec in O. destruct O as (j & ->). rewrite Nat2Z.inj_add, Nat2Z.inj_mul. change (Z.of_nat 2) with 2%Z. change (Z.of_nat 1) with 1%Z. Z.div_mod_to_equations. lia. Qed.
Section Patch.
Context (rows cols : Z) (offs : list Z) (in1 in2 : Z -> Z -> bool) (raw : affmap) (dist : Z * Z -> R) (p n : nat) (w : nat -> bool) (r c : Z) (k : nat).
Context (Odd : Nat.odd p = true) (Size : p * p <= n) (W : adds n w) (R : (0 <= r < rows)%Z) (C : (0 <= c < cols)%Z).
Context (Pos : forall q, (0 <= dist q)%R).
Context (Raw : forall y x, (0 <= y < rows)%Z -> (0 <= x < cols)%Z -> raw (y, x, k) = if matchable cols 0 in1 in2 (nth k offs 0%Z) y x then dist (y, x) else (-1)%R).

Definition pos (t : nat) : Z * Z := ((r + Z.of_nat (t / p) - Z.of_nat p / 2)%Z, (c + Z.of_nat (t mod p) - Z.of_nat p / 2)%Z).
Definition chosen (t : nat) : bool := (w t && match counted rows cols p raw r c k t with Some _ => true | None => false end)%bool.
Lemma p_pos : 0 < p.
Proof. exact (odd_pos p Odd). Qed.
Lemma p_odd : Z.of_nat p = (2 * (Z.of_nat p / 2) + 1)%Z.
Proof. exact (odd_half p Odd). Qed.
Lemma counted_spec t : counted rows cols p raw r c k t =
  if (t / p <? p) && ((0 <=? fst (pos t)) && (fst (pos t) <? rows) && (0 <=? snd (pos t)) && (snd (pos t) <? cols))%Z && matchable cols 0 in1 in2 (nth k offs 0%Z) (fst (pos t)) (snd (pos t)) then Some (dist (pos t)) else None.
Proof.
  unfold counted, member. fold (pos t). change (r + Z.of_nat (t / p) - Z.of_nat p / 2)%Z with (fst (pos t)). change (c + Z.of_nat (t mod p) - Z.of_nat p / 2)%Z with (snd (pos t)).
  destruct (t / p <? p) eqn:E; [| reflexivity ]. destruct ((0 <=? fst (pos t)) && (fst (pos t) <? rows) && (0 <=? snd (pos t)) && (snd (pos t) <? cols))%Z eqn:F; [| reflexivity ].
  cbn [andb fst snd]. rewrite !andb_true_iff, !Z.leb_le, !Z.ltb_lt in F. rewrite Raw by lia. destruct (matchable cols 0 in1 in2 (nth k offs 0%Z) (fst (pos t)) (snd (pos t))).
  - rewrite <- surjective_pairing. destruct (Req_EM_T (dist (pos t)) (-1)) as [Q|Q]; [ pose proof (Pos (pos t)); lra | reflexivity ].
  - destruct (Req_EM_T (-1) (-1)); [ reflexivity | congruence ].
Qed.
Lemma pos_slot t : t / p < p -> slot p r c (pos t) = t.
Proof.
  intro L. unfold slot, pos. cbn [fst snd]. pose proof (Nat.div_mod t p) as E. pose proof p_pos.
  replace ((r + Z.of_nat (t / p) - Z.of_nat p / 2 - r + Z.of_nat p / 2) * Z.of_nat p + (c + Z.of_nat (t mod p) - Z.of_nat p / 2 - c + Z.of_nat p / 2))%Z with (Z.of_nat t); [ apply Nat2Z.id |].
  rewrite E at 1 by lia. lia.
Qed.
Lemma slot_pos q : (Z.abs (fst q - r) <= Z.of_nat p / 2)%Z -> (Z.abs (snd q - c) <= Z.of_nat p / 2)%Z -> pos (slot p r c q) = q /\ slot p r c q / p < p.
Proof.
  intros A B. pose proof p_odd as O. pose proof p_pos as PP. set (h := (Z.of_nat p / 2)%Z) in *. destruct q as [y x]. cbn [fst snd] in *.
  assert (E : slot p r c (y, x) = p * Z.to_nat (y - r + h) + Z.to_nat (x - c + h)) by (unfold slot; cbn [fst snd]; fold h; rewrite Z2Nat.inj_add, Z2Nat.inj_mul, Nat2Z.id by nia; lia).
  assert (X : Z.to_nat (x - c + h) < p) by lia. assert (D : slot p r c (y, x) / p = Z.to_nat (y - r + h)) by (rewrite E; symmetry; apply (Nat.div_unique _ _ _ (Z.to_nat (x - c + h))); lia).
  assert (M : slot p r c (y, x) mod p = Z.to_nat (x - c + h)) by (rewrite E; symmetry; apply (Nat.mod_unique _ _ (Z.to_nat (y - r + h))); lia).
  unfold pos. rewrite D, M. fold h. split; [| lia ]. rewrite !Z2Nat.id by lia. f_equal; lia.
Qed.
Lemma pos_inj t u : pos t = pos u -> t = u.
Proof. unfold pos. intro H. injection H as A B. pose proof p_pos. rewrite (Nat.div_mod t p), (Nat.div_mod u p) by lia. assert (t / p = u / p) by lia. assert (t mod p = u mod p) by lia. congruence. Qed.
Lemma chosen_spec : Permutation (map pos (filter chosen (seq 0 n))) (filter (fun q => w (slot p r c q)) (supporters rows cols (Z.of_nat p / 2) in1 in2 (nth k offs 0%Z) r c)).
Proof.
  pose proof p_odd as O. pose proof p_pos as PP. apply NoDup_Permutation.
  - apply FinFun.Injective_map_NoDup; [ exact pos_inj |]. apply NoDup_filter, seq_NoDup.
  - apply NoDup_filter. unfold supporters. apply NoDup_filter, nodup_grid.
  - intro q. rewrite in_map_iff, filter_In. unfold supporters. rewrite filter_In, in_grid. setoid_rewrite filter_In. setoid_rewrite in_seq. unfold chosen. setoid_rewrite counted_spec.
    rewrite !andb_true_iff, !Z.leb_le. split.
    + intros (t & <- & T & H). rewrite andb_true_iff in H. destruct H as [Ht H]. destruct ((t / p <? p) && _) eqn:E; [| discriminate ]. rewrite !andb_true_iff, Nat.ltb_lt, !Z.leb_le, !Z.ltb_lt in E.
      rewrite pos_slot by tauto. destruct (matchable cols 0 in1 in2 (nth k offs 0%Z) (fst (pos t)) (snd (pos t))) eqn:M; [| discriminate ]. destruct E as [L B]. pose proof (Nat.mod_upper_bound t p ltac:(lia)). split; [| exact Ht ]. split; [ lia |]. split; [| reflexivity ]. unfold pos. cbn [fst snd]. lia.
    + intros [[G [[A B] M]] Hw]. destruct (slot_pos q A B) as [E L]. exists (slot p r c q). split; [ exact E |]. split.
      * split; [ lia |]. pose proof (Nat.div_mod (slot p r c q) p ltac:(lia)). pose proof (Nat.mod_upper_bound (slot p r c q) p ltac:(lia)). nia.
      * rewrite Hw, E, M. rewrite (proj2 (Nat.ltb_lt _ _) L), !(proj2 (Z.leb_le _ _)), !(proj2 (Z.ltb_lt _ _)) by lia. reflexivity.
Qed.
Lemma first_step m m' : phase n (patch_first rows cols p raw r c k) m m' -> forall t, t < n ->
  m' (cn t) = match counted rows cols p raw r c k t with Some _ => 1%R | None => 0%R end /\ m' (sh t) = match counted rows cols p raw r c k t with Some v => v | None => 0%R end.
Proof.
  intros K t T. apply phase_free in K.
  - destruct K as [A _]. unfold patch_first in A. split; rewrite (A t _ T) by (destruct (counted rows cols p raw r c k t); cbn; auto); destruct (counted rows cols p raw r c k t); alone_simp;
      rewrite ?set_same; try reflexivity; rewrite set_other by discriminate; now rewrite set_same.
  - intros x u a X U N Wr Rd. unfold patch_first in *. destruct (counted rows cols p raw r c k x); destruct (counted rows cols p raw r c k u); cbn in Wr, Rd; addrs; addrs.
Qed.
Lemma patch_entry m m' : kernel n (patch_kernel rows cols n p raw r c k) m m' ->
  patch_result m' = match filter (fun q => w (slot p r c q)) (supporters rows cols (Z.of_nat p / 2) in1 in2 (nth k offs 0%Z) r c) with [] => (-1)%R | l => average dist l end.
Proof.
  intro K. apply kernel_cons in K. destruct K as (m1 & A & B). pose proof (first_step m m1 A) as F.
  assert (S1 : m' (sh 0) = big n (fun i => if w i then m1 (sh i) else 0%R)).
  { apply (tree n (patch_round n) sh (fun _ => False)) with (w := w) in B; [ exact (proj1 B) | | exact W ]. intros s x x' L K. split; [| intros a0 F0; now elim F0 ]. apply patch_step in K; tauto. }
  assert (S2 : m' (cn 0) = big n (fun i => if w i then m1 (cn i) else 0%R)).
  { apply (tree n (patch_round n) cn (fun _ => False)) with (w := w) in B; [ exact (proj1 B) | | exact W ]. intros s x x' L K. split; [| intros a0 F0; now elim F0 ]. apply patch_step in K; tauto. }
  rewrite (big_ext n _ (fun i => if chosen i then dist (pos i) else 0%R)) in S1.
  2:{ intros i I. rewrite (proj2 (F i I)). unfold chosen. rewrite counted_spec. destruct (w i); [| reflexivity ]. destruct (_ && _)%bool; reflexivity. }
  rewrite (big_ext n _ (fun i => if chosen i then 1%R else 0%R)) in S2.
  2:{ intros i I. rewrite (proj1 (F i I)). unfold chosen. destruct (w i); [| reflexivity ]. destruct (counted rows cols p raw r c k i); reflexivity. }
  rewrite (big_filter (fun i => dist (pos i))), <- (sum_map pos dist) in S1. rewrite (big_filter (fun _ => 1%R)), sum_one in S2.
  pose proof chosen_spec as P. rewrite (sum_perm dist _ _ P) in S1. rewrite <- (map_length pos), (Permutation_length P) in S2.
  unfold patch_result. rewrite S1, S2. destruct (filter _ (supporters _ _ _ _ _ _ _ _)) as [|q l].
  - cbn [length INR]. destruct (Req_EM_T 0 0); congruence.
  - destruct (Req_EM_T (INR (length (q :: l))) 0) as [E|_]; [| reflexivity ]. exfalso. apply (not_0_INR (length (q :: l))); [ discriminate | exact E ].
Qed.
End Patch.

(* everything together *)
Lemma l2_threads_pos m : 0 < l2_threads m.
Proof. unfold l2_threads. destruct (Nat.ltb_spec 64 m); [| lia ]. pose proof (proj2 (div_up_spec m 64 ltac:(lia))). lia. Qed.
Lemma l2_threads_cases m : m <= 254 -> l2_threads m = 64 /\ m <= 64 \/ l2_threads m = 128 /\ m <= 128 \/ l2_threads m = 192 /\ 128 < m <= 192 \/ l2_threads m = 256 /\ 192 < m.
Proof.
  intro L. unfold l2_threads. destruct (Nat.ltb_spec 64 m) as [A|A]; [| now left ]. unfold div_up. pose proof (Nat.div_mod (m + 64 - 1) 64 ltac:(lia)) as E. pose proof (Nat.mod_upper_bound (m + 64 - 1) 64 ltac:(lia)).
  set (q := (m + 64 - 1) / 64) in *. assert (q = 2 \/ q = 3 \/ q = 4) as [Q|[Q|Q]] by lia; rewrite Q in *; cbn [Nat.mul]; lia.
Qed.
Lemma l2_all m : m <= 254 -> m <= 128 \/ 192 < m -> forall i, added (l2_threads m) i = true.
Proof.
  intros L M. destruct (l2_threads_cases m L) as [[-> _]|[[-> _]|[[-> H]|[-> _]]]]; [ apply (added_power 64 6); reflexivity | apply (added_power 128 7); reflexivity | lia | apply (added_power 256 8); reflexivity ].
Qed.
Lemma l2_thirds m : 128 < m <= 192 -> forall i, added (l2_threads m) i = two_thirds i.
Proof. intro M. destruct (l2_threads_cases m ltac:(lia)) as [[-> H]|[[-> H]|[[-> H]|[-> H]]]]; [ lia | lia | apply (added_thrice 192 6); reflexivity | lia ]. Qed.
Lemma gpu_raw_entry rows cols offs size roi1 roi2 d1 d2 raw : 0 < size -> raw_gpu rows cols offs size roi1 roi2 d1 d2 (l2_threads (length offs)) raw ->
  forall r c k, (0 <= r < rows)%Z -> (0 <= c < cols)%Z -> k < length offs ->
  raw (r, c, k) = if matchable cols 0 (wanted roi1) (wanted roi2) (nth k offs 0%Z) r c then distance (added (l2_threads (length offs))) size (squared (d1 (r, c)) (d2 (r, (c + nth k offs 0)%Z))) else (-1)%R.
Proof. intros S G r c k R C K. apply (raw_gpu_entry rows cols offs size roi1 roi2 d1 d2 (l2_threads (length offs))); auto. split; [ apply l2_threads_pos | reflexivity ]. Qed.
Lemma patch_threads_ok p : 0 < p -> 0 < patch_threads p /\ p * p <= patch_threads p.
Proof. intro P. unfold patch_threads. destruct (div_up_spec (p * p) 32 ltac:(lia)) as [A B]. assert (0 < p * p) by nia. specialize (B H). lia. Qed.
Section Whole.
Context (rows cols : Z) (offs : list Z) (size : nat) (roi1 roi2 : roi) (d1 d2 : Z * Z -> list R).
Context (S0 : 0 < size).
Definition apart (k : nat) (q : Z * Z) : R := distance (added (l2_threads (length offs))) size (squared (d1 q) (d2 (fst q, (snd q + nth k offs 0)%Z))).
Definition raw_value (i : cell) : R := let '(r, c, k) := i in if matchable cols 0 (wanted roi1) (wanted roi2) (nth k offs 0%Z) r c then apart k (r, c) else (-1)%R.
Definition patch_value (p : nat) (i : cell) : R := let '(r, c, k) := i in
  match filter (fun q => added (patch_threads p) (slot p r c q)) (supporters rows cols (Z.of_nat p / 2) (wanted roi1) (wanted roi2) (nth k offs 0%Z) r c) with [] => (-1)%R | l => average (apart k) l end.
Lemma whole_single res : gpu_affinity rows cols offs size roi1 roi2 d1 d2 1 res -> forall r c k, (0 <= r < rows)%Z -> (0 <= c < cols)%Z -> k < length offs -> res (r, c, k) = raw_value (r, c, k).
Proof. intros [_ G] r c k R C K. cbn [Nat.eqb] in G. rewrite (gpu_raw_entry _ _ _ _ _ _ _ _ _ S0 G r c k R C K). reflexivity. Qed.
Lemma whole_patch p res : Nat.odd p = true -> p <> 1 -> gpu_affinity rows cols offs size roi1 roi2 d1 d2 p res -> forall r c k, (0 <= r < rows)%Z -> (0 <= c < cols)%Z -> k < length offs -> res (r, c, k) = patch_value p (r, c, k).
Proof.
  intros O P [_ G] r c k R C K. assert (PP : 0 < p) by (destruct p; [ discriminate | lia ]). destruct (patch_threads_ok p PP) as (W & Q). rewrite (proj2 (Nat.eqb_neq p 1) P) in G. destruct G as [_ (raw & A & B)].
  destruct (B r c k R C K) as (m & m' & Kn & V). rewrite V.
  apply (patch_entry rows cols offs (wanted roi1) (wanted roi2) raw (apart k) p (patch_threads p) (added (patch_threads p)) r c k O Q (conj W (fun _ => eq_refl)) R C) with (m := m); [ intro; apply distance_pos | | exact Kn ].
  intros y x Y X. rewrite (gpu_raw_entry _ _ _ _ _ _ _ _ _ S0 A y x k Y X K). reflexivity.
Qed.
Lemma raw_exists : raw_gpu rows cols offs size roi1 roi2 d1 d2 (l2_threads (length offs)) raw_value.
Proof.
  intros r c R C. destruct (kernel_exists (l2_threads (length offs)) (pixel_kernel cols offs size roi1 roi2 d1 d2 (l2_threads (length offs)) r c) (fun _ => 0%R)) as (m' & K). exists (fun _ => 0%R), m'. split; [ exact K |].
  intros k Q. rewrite (pixel_entry cols offs size roi1 roi2 d1 d2 _ _ _ _ r c (conj (l2_threads_pos _) (fun _ => eq_refl)) S0 K k Q). reflexivity.
Qed.
Lemma single_exists : length offs <= 254 -> gpu_affinity rows cols offs size roi1 roi2 d1 d2 1 raw_value.
Proof. intro L. split; [ exact L |]. exact raw_exists. Qed.
Lemma patch_exists p : length offs <= 254 -> Nat.odd p = true -> p <> 1 -> p <= 31 -> gpu_affinity rows cols offs size roi1 roi2 d1 d2 p (patch_value p).
Proof.
  intros L O P M. assert (PP : 0 < p) by (destruct p; [ discriminate | lia ]). destruct (patch_threads_ok p PP) as (W & Q). split; [ exact L |]. rewrite (proj2 (Nat.eqb_neq p 1) P). split.
  - unfold patch_threads, div_up. assert (p * p <= 31 * 31) by (apply Nat.mul_le_mono; lia). pose proof (Nat.div_mod (p * p + 32 - 1) 32 ltac:(lia)). lia.
  - exists raw_value. split; [ exact raw_exists |]. intros r c k R C K. destruct (kernel_exists (patch_threads p) (patch_kernel rows cols (patch_threads p) p raw_value r c k) (fun _ => 0%R)) as (m' & Kn). exists (fun _ => 0%R), m'. split; [ exact Kn |].
    symmetry. apply (patch_entry rows cols offs (wanted roi1) (wanted roi2) raw_value (apart k) p (patch_threads p) (added (patch_threads p)) r c k O Q (conj W (fun _ => eq_refl)) R C) with (m := fun _ => 0%R); [ intro; apply distance_pos | | exact Kn ].
    intros y x _ _. reflexivity.
Qed.
End Whole.

(* where all numbers are added up the kernels give what the processor gives *)
Lemma filter_all {A} (f : A -> bool) l : (forall x, f x = true) -> filter f l = l.
Proof. intro H. induction l as [|x l IH]; cbn; [ reflexivity |]. now rewrite H, IH. Qed.
Lemma apart_l2 offs size d1 d2 k q : length offs <= 254 -> (length offs <= 128 \/ 192 < length offs) -> (forall q, length (d1 q) = size) -> (forall q, length (d2 q) = size) ->
  apart offs size d1 d2 k q = l2 (d1 q) (d2 (fst q, (snd q + nth k offs 0)%Z)).
Proof. intros L M A B. unfold apart. apply distance_l2; auto. now apply l2_all. Qed.
Lemma filter_single {A} (f : A -> bool) q l : NoDup l -> In q l -> (forall x, In x l -> f x = true -> x = q) -> filter f l = if f q then [q] else [].
Proof.
  intros ND I H. induction l as [|x l IH]; [ destruct I |]. inversion ND as [|? ? NX ND']. subst. cbn [filter]. destruct I as [->|I].
  - assert (T : filter f l = []).
    { clear IH ND ND'. induction l as [|y l IH]; [ reflexivity |]. cbn [filter]. destruct (f y) eqn:E; [ exfalso; apply NX; left; apply H; [ right; now left | exact E ] |].
      apply IH; [| intro; apply NX; now right ]. intros z Z. apply H. destruct Z as [->|Z]; [ now left | right; now right ]. }
    rewrite T. reflexivity.
  - rewrite IH; [| assumption | assumption | intros; apply H; [ now right | assumption ] ]. destruct (f x) eqn:E; [| reflexivity ]. exfalso. apply NX. rewrite (H x (or_introl eq_refl) E). exact I.
Qed.
Lemma good_patch p : In p [3; 5; 7; 11; 15] -> forall i, added (patch_threads p) i = true.
Proof.
  cbn [In]. intros [<-|[<-|[<-|[<-|[<-|[]]]]]]; [ apply (added_power (patch_threads 3) 5) | apply (added_power (patch_threads 5) 5) | apply (added_power (patch_threads 7) 6) | apply (added_power (patch_threads 11) 7) | apply (added_power (patch_threads 15) 8) ]; reflexivity.
Qed.
Lemma gpu_same rows cols p offs size roi1 roi2 d1 d2 res r c k : gpu_affinity rows cols offs size roi1 roi2 d1 d2 p res ->
  (length offs <= 128 \/ 192 < length offs) -> In p [1; 3; 5; 7; 11; 15] -> 0 < size -> (forall q, length (d1 q) = size) -> (forall q, length (d2 q) = size) ->
  (0 <= r < rows)%Z -> (0 <= c < cols)%Z -> k < length offs ->
  res (r, c, k) = desc_affinity rows cols (Z.of_nat p) offs roi1 roi2 (fun a b => l2 (d1 a) (d2 b)) (r, c, k).
Proof.
  intros G M P S0 A B R C K. pose proof (proj1 G) as L. rewrite desc_entry; [| cbn [In] in P; lia | assumption | assumption | assumption | intros; apply l2_pos ]. cbv zeta.
  assert (AP := fun q => apart_l2 offs size d1 d2 k q L M A B). destruct P as [<-|P].
  - rewrite (whole_single _ _ _ _ _ _ _ _ S0 _ G r c k R C K). unfold raw_value. rewrite AP. cbn [fst snd]. change (Z.of_nat 1 / 2)%Z with 0%Z.
    assert (E : supporters rows cols 0 (wanted roi1) (wanted roi2) (nth k offs 0%Z) r c = if matchable cols 0 (wanted roi1) (wanted roi2) (nth k offs 0%Z) r c then [(r, c)] else []).
    { unfold supporters. rewrite (filter_single _ (r, c)); [ cbn [fst snd]; now rewrite !Z.sub_diag | apply nodup_grid | apply in_grid; cbn [fst snd]; lia |].
      intros [y x] _ H. cbn [fst snd] in H. rewrite !andb_true_iff, !Z.leb_le in H. f_equal; lia. }
    rewrite E. destruct (matchable _ _ _ _ _ _ _); [| reflexivity ]. unfold average. cbn. lra.
  - assert (O : Nat.odd p = true) by (cbn [In] in P; destruct P as [<-|[<-|[<-|[<-|[<-|[]]]]]]; reflexivity). assert (N1 : p <> 1) by (cbn [In] in P; lia). rewrite (whole_patch _ _ _ _ _ _ _ _ S0 p _ O N1 G r c k R C K).
    unfold patch_value. rewrite filter_all by (intro; now apply good_patch). destruct (supporters _ _ _ _ _ _ _ _) as [|q l]; [ reflexivity |]. unfold average. f_equal. apply sum_ext. intros x _. apply AP.
Qed.

(* offsets in the constant memory of the device *)
Lemma call_cached s t offs k : k < length offs -> cached (call s (t, offs)) t k = nth k offs 0%Z.
Proof.
  intro K. cbn [call]. destruct (forallb _ _) eqn:E.
  - rewrite forallb_forall in E. specialize (E k ltac:(apply in_seq; lia)). apply Z.eqb_eq in E. now symmetry.
  - cbn [cached]. rewrite Nat.eqb_refl. now rewrite (proj2 (Nat.ltb_lt _ _) K).
Qed.
Lemma call_synced s t offs : (forall k, device s k = cached s t k) -> forall k, device (call s (t, offs)) k = cached (call s (t, offs)) t k.
Proof. intros H k. cbn [call]. destruct (forallb _ _); [ apply H |]. cbn [device cached]. now rewrite Nat.eqb_refl. Qed.
Lemma used_alone t cs offs : (forall c, In c cs -> fst c = t) -> used cs (t, offs) = offs.
Proof.
  intro H. unfold used. assert (S : forall k, device (fold_left call cs fresh) k = cached (fold_left call cs fresh) t k).
  { assert (G : forall cs s, (forall c, In c cs -> fst c = t) -> (forall k, device s k = cached s t k) -> forall k, device (fold_left call cs s) k = cached (fold_left call cs s) t k).
    { induction cs0 as [|[u o] cs0 IH]; intros s I E; [ exact E |]. cbn [fold_left]. apply IH; [ intros; apply I; now right |]. specialize (I (u, o) (or_introl eq_refl)). cbn in I. subst u. now apply call_synced. }
    now apply G. }
  cbn [snd]. apply (nth_ext _ _ 0%Z 0%Z); [ now rewrite map_length, seq_length |]. intros k K. rewrite map_length, seq_length in K.
  rewrite (nth_indep _ 0%Z (device (call (fold_left call cs fresh) (t, offs)) 0)) by (rewrite map_length, seq_length; exact K). rewrite map_nth, seq_nth by assumption. cbn [Nat.add]. rewrite call_synced by exact S. now apply call_cached.
Qed.

(* one pixel that is wanted, but dropped *)
Lemma dropped_pixel (p i : nat) : Nat.odd p = true -> p <> 1 -> p <= 31 -> i < p * p -> added (patch_threads p) i = false ->
  let q := pos p 32 32 i in let roi1 := Some (fun y x => (y =? fst q)%Z && (x =? snd q)%Z) in
  (0 <= fst q < 65)%Z /\ (0 <= snd q < 65)%Z /\ supporters 65 65 (Z.of_nat p / 2) (wanted roi1) (wanted (Some (fun _ _ => true))) 0 32 32 = [q] /\ added (patch_threads p) (slot p 32 32 q) = false.
Proof.
  intros O N M I D q roi1. pose proof (odd_half p O) as E. pose proof (odd_pos p O) as P. assert (L : i / p < p) by (apply Nat.div_lt_upper_bound; lia). pose proof (Nat.mod_upper_bound i p ltac:(lia)) as U.
  assert (Q1 : (0 <= fst q < 65)%Z) by (unfold q, pos; cbn [fst snd]; lia). assert (Q2 : (0 <= snd q < 65)%Z) by (unfold q, pos; cbn [fst snd]; lia).
  split; [ exact Q1 |]. split; [ exact Q2 |]. split.
  - unfold supporters. rewrite (filter_single _ q).
    + unfold matchable, roi1. cbn [wanted]. rewrite !Z.eqb_refl. assert (A : (Z.abs (fst q - 32) <=? Z.of_nat p / 2)%Z = true) by (apply Z.leb_le; unfold q, pos; cbn [fst snd]; lia).
      assert (B : (Z.abs (snd q - 32) <=? Z.of_nat p / 2)%Z = true) by (apply Z.leb_le; unfold q, pos; cbn [fst snd]; lia). rewrite A, B, (proj2 (Z.leb_le _ _)), (proj2 (Z.ltb_lt _ _)) by lia. reflexivity.
    + apply nodup_grid.
    + apply in_grid. lia.
    + intros [y x] _ H. unfold matchable, roi1 in H. cbn [wanted fst snd] in H. rewrite !andb_true_iff, !Z.eqb_eq in H. destruct q. cbn [fst snd] in *. f_equal; tauto.
  - unfold q. now rewrite (pos_slot p (p * p) 32 32 O (le_n _)).
Qed.
