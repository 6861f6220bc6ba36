(** Proofs about the evaluation of several streams. *)
From Coq Require Import ZArith QArith List Bool String Lia.
From Verif Require Import Lib.Grid Model.Metrics Spec.Metrics Spec.MetricsTree Model.EvalArrays Spec.EvalArrays Proofs.Metrics Proofs.MetricsTree.
Import ListNotations.
Open Scope Z_scope.

Lemma map2_len {A B C} (f : A -> B -> C) : forall l r, List.length l = List.length r -> List.length (map2 f l r) = List.length l.
Proof. induction l as [| x l IH]; intros [| y r] E; cbn in *; try discriminate; auto. Qed.
Lemma map2_nth {A B C} (f : A -> B -> C) da db dc : forall l r s, List.length l = List.length r -> (s < List.length l)%nat ->
  nth s (map2 f l r) dc = f (nth s l da) (nth s r db).
Proof. induction l as [| x l IH]; intros [| y r] [| s] E H; cbn in *; try discriminate; try lia; auto. apply IH; lia. Qed.
Lemma nth_repeat_any {A} (z : A) n s : nth s (repeat z n) z = z.
Proof. revert s. induction n as [| n IH]; intros [| s]; cbn; auto. Qed.
Lemma resize_nil {A} (z : A) n : resize z n [] = repeat z n.
Proof. unfold resize. rewrite firstn_nil. cbn. now rewrite Nat.sub_0_r. Qed.
Lemma is_nil_spec {A} (l : list A) : is_nil l = true <-> l = [].
Proof. destruct l; cbn; split; congruence. Qed.
Lemma nth_over {A} (l : list A) s d : (List.length l <= s)%nat -> nth s l d = d.
Proof. apply nth_overflow. Qed.

Section Ind.
Variable A : Type. Variable P : abatch A -> Prop.
Hypothesis HW : forall n a, P (AWork n a).
Hypothesis HG : forall bare l, Forall P l -> P (AGroup bare l).
Fixpoint abatch_ind2 (b : abatch A) : P b :=
  match b with
  | AWork n a => HW n a
  | AGroup bare l => HG bare l ((fix all l : Forall P l := match l with [] => Forall_nil _ | x :: r => Forall_cons _ (abatch_ind2 x) (all r) end) l)
  end.
End Ind.

Section Acc.
Variable A : Type.
Variable zero : A.
Variable add : A -> A -> A.
Notation acc_add := (acc_add A zero add).
Notation total_accs := (total_accs A zero add).

(** adding to an accumulator that already has its streams *)
Lemma add_shaped n a b : shaped n a -> shaped n b -> exists c, acc_add a b = Some c /\ shaped n c /\
  (forall s, (s < n)%nat -> nth s (vals c) zero = add (nth s (vals a) zero) (nth s (vals b) zero)) /\
  (forall s, (s < n)%nat -> nth s (names c) EmptyString = keep_name (nth s (names a) EmptyString) (nth s (names b) EmptyString)).
Proof.
  intros [Va Na] [Vb Nb]. unfold EvalArrays.acc_add.
  assert (V : (if is_nil (vals a) then resize zero (List.length (vals b)) (vals a) else vals a) = vals a).
  { destruct (vals a) as [| x l] eqn:E; auto. assert (Z : List.length (vals b) = 0%nat) by (rewrite Vb, <- Va; reflexivity). apply length_zero_iff_nil in Z. now rewrite Z. }
  assert (N : (if is_nil (names a) then names b else names a) = names a).
  { destruct (names a) as [| x l] eqn:E; auto. assert (Z : List.length (names b) = 0%nat) by (rewrite Nb, <- Na; reflexivity). apply length_zero_iff_nil in Z. now rewrite Z. }
  rewrite V, N, Va, Vb, Na, Nb, Nat.eqb_refl. cbn [negb]. eexists. split; [ reflexivity |].
  unfold shaped. cbn [vals names]. rewrite !map2_len by congruence. repeat split; auto; intros s H.
  - apply map2_nth; lia.
  - apply map2_nth; lia.
Qed.
(** adding to a new accumulator *)
Lemma add_first n b : shaped n b -> exists c, acc_add (new_acc A zero 0) b = Some c /\ shaped n c /\
  (forall s, (s < n)%nat -> nth s (vals c) zero = add zero (nth s (vals b) zero)) /\
  (forall s, (s < n)%nat -> nth s (names c) EmptyString = nth s (names b) EmptyString).
Proof.
  intros [Vb Nb]. unfold EvalArrays.acc_add, new_acc. cbn [vals names repeat is_nil].
  rewrite resize_nil, repeat_length, Vb, Nb, Nat.eqb_refl. cbn [negb]. eexists. split; [ reflexivity |].
  unfold shaped. cbn [vals names]. rewrite !map2_len by (rewrite ?repeat_length; congruence). rewrite repeat_length. repeat split; auto; intros s H.
  - rewrite (map2_nth add zero zero zero); [ now rewrite nth_repeat_any | rewrite repeat_length; lia | rewrite repeat_length; lia ].
  - rewrite (map2_nth keep_name EmptyString EmptyString EmptyString); [| lia | lia ]. unfold keep_name. destruct (_ =? "")%string; auto.
Qed.
Lemma add_inv a b c k n : shaped k a -> shaped n b -> acc_add a b = Some c -> shaped n c /\ (k = n \/ k = 0)%nat.
Proof.
  intros [Va Na] [Vb Nb] E. unfold EvalArrays.acc_add in E.
  destruct (Nat.eq_dec k 0) as [-> | K].
  { destruct (vals a); [| discriminate]. destruct (names a); [| discriminate]. split; auto.
    destruct (add_first n b (conj Vb Nb)) as (c' & E' & Sh & _). unfold EvalArrays.acc_add, new_acc in E'. cbn [vals names repeat is_nil] in *. rewrite E' in E. injection E as <-. exact Sh. }
  destruct (vals a) as [| x va] eqn:Ea; [ cbn in Va; congruence |]. cbn [is_nil] in E.
  destruct (Nat.eq_dec k n) as [-> | D].
  - split; auto. destruct (add_shaped n a b) as (c' & E' & Sh & _); [ split; congruence | split; auto |].
    unfold EvalArrays.acc_add in E'. rewrite Ea in E'. cbn [is_nil] in E'. rewrite E' in E. injection E as <-. exact Sh.
  - rewrite Va, Vb in E. destruct (Nat.eqb_spec k n); [ congruence | discriminate ].
Qed.
Lemma total_none l : fold_left (add_opt A zero add) l None = None.
Proof. induction l; auto. Qed.
Lemma first_named_cons x l : first_named (x :: l) = keep_name x (first_named l).
Proof. unfold first_named, keep_name. cbn [find]. destruct (x =? "")%string; reflexivity. Qed.
Lemma total_from n : forall l a, shaped n a -> Forall (shaped n) l -> exists c, fold_left (add_opt A zero add) (map Some l) (Some a) = Some c /\ shaped n c /\
  (forall s, (s < n)%nat -> nth s (vals c) zero = fold_left add (map (fun x => nth s (vals x) zero) l) (nth s (vals a) zero)) /\
  (forall s, (s < n)%nat -> nth s (names c) EmptyString = first_named (map (fun x => nth s (names x) EmptyString) (a :: l))).
Proof.
  induction l as [| b l IH]; intros a Sa F.
  - exists a. cbn. repeat split; auto; try apply Sa. intros s _. rewrite first_named_cons. unfold keep_name, first_named. cbn. destruct (_ =? "")%string eqn:E; auto. now apply String.eqb_eq in E.
  - inversion F; subst. destruct (add_shaped n a b Sa H1) as (c & E & Sc & V & N). cbn [map fold_left add_opt]. rewrite E.
    destruct (IH c Sc H2) as (d & Ed & Sd & Vd & Nd). exists d. repeat split; auto; try apply Sd.
    + intros s Hs. rewrite Vd by auto. now rewrite V.
    + intros s Hs. rewrite Nd by auto. cbn [map]. rewrite !first_named_cons, N by auto. unfold keep_name. destruct (nth s (names a) "" =? "")%string eqn:E1; auto. now rewrite E1.
Qed.
Theorem total_ok n l : l <> [] -> Forall (shaped n) l -> exists c, total_accs (map Some l) = Some c /\ shaped n c /\
  (forall s, (s < n)%nat -> nth s (vals c) zero = fold_left add (map (fun x => nth s (vals x) zero) l) zero) /\
  (forall s, (s < n)%nat -> nth s (names c) EmptyString = first_named (map (fun x => nth s (names x) EmptyString) l)).
Proof.
  intros N F. destruct l as [| b l]; [ congruence |]. inversion F; subst. unfold EvalArrays.total_accs. cbn [map fold_left add_opt].
  destruct (add_first n b H1) as (c & E & Sc & V & Nm). rewrite E. destruct (total_from n l c Sc H2) as (d & Ed & Sd & Vd & Nd).
  exists d. repeat split; auto; try apply Sd; intros s Hs.
  - rewrite Vd by auto. now rewrite V.
  - rewrite Nd by auto. cbn [map]. rewrite !first_named_cons. now rewrite Nm.
Qed.
(** when the total exists: unprocessed batches may only come first *)
Theorem total_exists l : Forall (fun a => exists n, shaped n a) l ->
  (total_accs (map Some l) <> None <-> exists us ps n, l = us ++ ps /\ Forall (shaped 0) us /\ Forall (shaped n) ps).
Proof.
  intros F. unfold EvalArrays.total_accs.
  assert (G : forall l, Forall (fun a => exists n, shaped n a) l -> forall k a, shaped k a ->
    (fold_left (add_opt A zero add) (map Some l) (Some a) <> None <->
     if Nat.eqb k 0 then exists us ps n, l = us ++ ps /\ Forall (shaped 0) us /\ Forall (shaped n) ps else Forall (shaped k) l)).
  { clear l F. induction l as [| b l IH]; intros F k a Sa.
    - cbn. destruct (k =? 0)%nat; split; intros; auto; try discriminate. exists [], [], 0%nat. auto.
    - inversion F as [| ? ? [n Sb] F']; subst. cbn [map fold_left add_opt]. destruct (acc_add a b) as [c |] eqn:E.
      + destruct (add_inv a b c k n Sa Sb E) as [Sc [-> | ->]].
        * rewrite (IH F' n c Sc). destruct (Nat.eqb_spec n 0) as [-> | D].
          -- split.
             ++ intros (us & ps & m & -> & U & P). exists (b :: us), ps, m. auto.
             ++ intros (us & ps & m & L & U & P). destruct us as [| u us]; cbn in L.
                ** subst ps. inversion P; subst. exists [], l, m. auto.
                ** injection L as <- ->. inversion U; subst. exists us, ps, m. auto.
          -- split; intros H; [ constructor; auto | now inversion H ].
        * rewrite (IH F' n c Sc). cbn [Nat.eqb]. destruct (Nat.eqb_spec n 0) as [-> | D].
          -- split.
             ++ intros (us & ps & m & -> & U & P). exists (b :: us), ps, m. auto.
             ++ intros (us & ps & m & L & U & P). destruct us as [| u us]; cbn in L.
                ** subst ps. inversion P; subst. exists [], l, m. auto.
                ** injection L as <- ->. inversion U; subst. exists us, ps, m. auto.
          -- split.
             ++ intros H. exists [], (b :: l), n. repeat split; auto.
             ++ intros (us & ps & m & L & U & P). destruct us as [| u us]; cbn in L.
                ** subst ps. inversion P as [| ? ? Hb Hl]; subst. replace n with m; auto. destruct Sb, Hb; congruence.
                ** injection L as <- ->. inversion U as [| ? ? Hb Hl]; subst. destruct Sb, Hb; congruence.
      + rewrite total_none. split; [ congruence |]. intros H. exfalso.
        destruct (Nat.eqb_spec k 0) as [-> | D].
        * assert (a = new_acc A zero 0) as -> by (destruct a as [[|] [|]], Sa; cbn in *; try discriminate; reflexivity).
          destruct (add_first n b Sb) as (c & E' & _). congruence.
        * inversion H; subst. destruct (add_shaped k a b Sa H2) as (c & E' & _). congruence. }
  rewrite (G l F 0%nat (new_acc A zero 0)) by (split; reflexivity). reflexivity.
Qed.

(** *** packets *)
Section Frames.
Variable X : Type.
Variable f : A -> X -> option A.
Variable dx : X.
Lemma map2_opt_some : forall l xs v, List.length l = List.length xs -> map2_opt f l xs = Some v ->
  List.length v = List.length l /\ forall s, (s < List.length l)%nat -> f (nth s l zero) (nth s xs dx) = Some (nth s v zero).
Proof.
  induction l as [| a l IH]; intros [| x xs] v L E; cbn in *; try discriminate.
  - injection E as <-. split; auto. intros; lia.
  - destruct (f a x) as [z |] eqn:Ez; [| discriminate]. destruct (map2_opt f l xs) as [t |] eqn:Et; [| discriminate]. injection E as <-.
    destruct (IH xs t) as [Lt Ht]; auto. split; [ cbn; congruence |]. intros [| s] H; cbn; auto. apply Ht. lia.
Qed.
Lemma map2_opt_none : forall l xs, List.length l = List.length xs -> map2_opt f l xs = None -> exists s, (s < List.length l)%nat /\ f (nth s l zero) (nth s xs dx) = None.
Proof.
  induction l as [| a l IH]; intros [| x xs] L E; cbn in *; try discriminate.
  destruct (f a x) as [z |] eqn:Ez; [| exists 0%nat; split; [ lia | auto ] ].
  destruct (map2_opt f l xs) as [t |] eqn:Et; [ discriminate |]. destruct (IH xs) as (s & H & N); auto. exists (S s). split; [ lia | auto ].
Qed.
Lemma seq_none l : fold_left (fun o x => match o with Some v => f v x | None => None end) l None = None.
Proof. induction l; auto. Qed.
Notation process := (process A zero f).
Lemma process_shaped n a xs : shaped n a -> (0 < n)%nat -> process n a xs =
  if (List.length xs =? n)%nat then match map2_opt f (vals a) xs with Some v => Some (Acc v (names a)) | None => None end else None.
Proof.
  intros [Va Na] P. unfold EvalArrays.process.
  destruct (Nat.eqb_spec (List.length xs) n) as [L | L].
  - destruct xs as [| x xs]; [ cbn in L; lia |]. cbn [is_nil negb orb]. destruct (vals a) as [| v va] eqn:Ev; [ cbn in Va; lia |]. destruct (names a) as [| m na] eqn:En; [ cbn in Na; lia |].
    cbn [is_nil orb]. rewrite Ev, En. reflexivity.
  - cbn [negb]. rewrite orb_true_r. reflexivity.
Qed.
Lemma process_new n xs : (0 < n)%nat -> process n (new_acc A zero 0) xs = process n (new_acc A zero n) xs.
Proof.
  intros P. rewrite (process_shaped n (new_acc A zero n)) by (auto; split; apply repeat_length). unfold EvalArrays.process, new_acc. cbn [vals names repeat is_nil].
  destruct (Nat.eqb_spec (List.length xs) n) as [L | L].
  - destruct xs as [| x xs]; [ cbn in L; lia |]. cbn [is_nil negb orb]. rewrite L. rewrite !resize_nil. cbn [vals names]. reflexivity.
  - cbn [negb]. rewrite orb_true_r. reflexivity.
Qed.
Theorem process_ok n l : (0 < n)%nat -> l <> [] ->
  (forall a, process_all A zero f n l = Some a -> Forall (fun xs => List.length xs = n) l /\ shaped n a /\ (forall s, nth s (names a) EmptyString = EmptyString) /\
     forall s, (s < n)%nat -> sequence f (map (fun xs => nth s xs dx) l) zero = Some (nth s (vals a) zero)) /\
  (Forall (fun xs => List.length xs = n) l -> (forall s, (s < n)%nat -> sequence f (map (fun xs => nth s xs dx) l) zero <> None) -> process_all A zero f n l <> None).
Proof.
  intros P N.
  assert (G : forall l a0, shaped n a0 ->
    let r := fold_left (fun o xs => match o with Some a => process n a xs | None => None end) l (Some a0) in
    (forall a, r = Some a -> Forall (fun xs => List.length xs = n) l /\ shaped n a /\ names a = names a0 /\
       forall s, (s < n)%nat -> sequence f (map (fun xs => nth s xs dx) l) (nth s (vals a0) zero) = Some (nth s (vals a) zero)) /\
    (Forall (fun xs => List.length xs = n) l -> (forall s, (s < n)%nat -> sequence f (map (fun xs => nth s xs dx) l) (nth s (vals a0) zero) <> None) -> r <> None)).
  { clear l N. induction l as [| xs l IH]; intros a0 S0; cbn [fold_left].
    - split; [| intros; discriminate ]. intros a E. injection E as <-. repeat split; auto; apply S0.
    - cbn zeta. rewrite (process_shaped n a0 xs S0 P).
      assert (NN : forall l, fold_left (fun o xs => match o with Some a => process n a xs | None => None end) l None = None) by (intros k; induction k; auto).
      destruct (Nat.eqb_spec (List.length xs) n) as [L | L].
      2:{ rewrite NN. split; [ discriminate |]. intros F. inversion F; congruence. }
      destruct (map2_opt f (vals a0) xs) as [v |] eqn:E.
      + destruct (map2_opt_some (vals a0) xs v) as [Lv Hv]; [ destruct S0; congruence | auto |].
        assert (S1 : shaped n (Acc v (names a0))) by (destruct S0; split; cbn; congruence).
        destruct (IH _ S1) as [A1 A2]. destruct S0 as [V0 N0]. split.
        * intros a Ea. destruct (A1 a Ea) as (F & Sa & Na & Hs). repeat split; auto; try apply Sa.
          intros s H. unfold sequence. cbn [map fold_left]. rewrite Hv by lia. now apply Hs.
        * intros F Hs. inversion F; subst. apply A2; auto. intros s H. cbn [vals]. specialize (Hs s H). unfold sequence in Hs. cbn [map fold_left] in Hs. rewrite Hv in Hs by lia. exact Hs.
      + rewrite NN. split; [ discriminate |]. intros F Hs. destruct (map2_opt_none (vals a0) xs) as (s & H & Nn); [ destruct S0; congruence | auto |].
        exfalso. destruct S0 as [V0 N0]. apply (Hs s); [ lia |]. unfold sequence. cbn [map fold_left]. rewrite Nn. apply seq_none. }
  assert (S0 : shaped n (new_acc A zero n)) by (split; apply repeat_length).
  destruct (G l _ S0) as [G1 G2]. unfold process_all. destruct l as [| xs l]; [ congruence |]. cbn [fold_left] in *. rewrite process_new by auto.
  split.
  - intros a E. destruct (G1 a E) as (F & Sa & Na & Hs). repeat split; auto; try apply Sa.
    + intros s. rewrite Na. cbn. apply nth_repeat_any.
    + intros s H. specialize (Hs s H). cbn [vals new_acc] in Hs. rewrite nth_repeat_any in Hs. exact Hs.
  - intros F Hs. apply G2; auto. intros s H. cbn [vals new_acc]. rewrite nth_repeat_any. now apply Hs.
Qed.
End Frames.

(** *** trees *)
Lemma full_group n bare l : @full A n (AGroup bare l) <-> l <> [] /\ Forall (@full A n) l.
Proof.
  cbn [full]. assert (E : forall l, (fix all l := match l with [] => True | x :: r => full n x /\ all r end) l <-> Forall (@full A n) l).
  { clear. induction l as [| x l IH]; [ split; auto |]. split; intros G; [ destruct G; constructor; auto; now apply IH | inversion G; subst; split; auto; now apply IH ]. }
  now rewrite E.
Qed.
Lemma evaluated_group n l : @evaluated A n (AGroup false l) <-> Forall (fun x => aoutputs x <> 0 -> evaluated n x) l.
Proof.
  cbn [evaluated]. induction l as [| x l IH]; [ split; auto |]. split; intros G; [ destruct G; constructor; auto; now apply IH | inversion G; subst; split; auto; now apply IH ].
Qed.
Theorem full_base n b : @full A n b -> exists a, abase A zero add b = Some a /\ shaped n a.
Proof.
  induction b as [k a | bare l IH] using abatch_ind2; intros F.
  - exists a. auto.
  - apply full_group in F as [N F]. cbn [abase].
    assert (E : exists cs, map (abase A zero add) l = map Some cs /\ Forall (shaped n) cs).
    { clear N. induction l as [| x l IHl]; [ exists []; auto |]. inversion IH; inversion F; subst. destruct (H1 H5) as (a & E & Sa). destruct IHl as (cs & Ec & Fc); auto.
      exists (a :: cs). cbn. rewrite E, Ec. auto. }
    destruct E as (cs & E & Fc). rewrite E. assert (cs <> []) as Nc by (intros ->; destruct l; [ congruence | discriminate ]).
    destruct (total_ok n cs Nc Fc) as (c & Ec & Sc & _). eauto.
Qed.
End Acc.

(** *** one stream of the totals and averages *)
Lemma acc_zero : accumulate zero_counters zero_counters = zero_counters.
Proof. reflexivity. Qed.
Lemma add_stream a b c s : acc_add counters zero_counters accumulate a b = Some c ->
  nth s (vals c) zero_counters = accumulate (nth s (vals a) zero_counters) (nth s (vals b) zero_counters) /\ (List.length (vals c) = List.length (vals b)).
Proof.
  unfold acc_add. intros E.
  destruct (negb _) eqn:L1 in E; [ discriminate |]. apply negb_false_iff, Nat.eqb_eq in L1.
  destruct (negb _) eqn:L2 in E; [ discriminate |]. destruct (negb _) eqn:L3 in E; [ discriminate |]. injection E as <-. cbn [vals].
  rewrite map2_len by auto. split; [| exact L1 ].
  destruct (le_lt_dec (List.length (vals b)) s) as [G | G].
  - rewrite (nth_over (map2 _ _ _)) by (rewrite map2_len; lia). rewrite (nth_over (vals b)) by exact G. rewrite (nth_over (vals a)); [ reflexivity |].
    destruct (is_nil (vals a)) eqn:Z; [| lia ]. apply is_nil_spec in Z. rewrite Z. cbn. lia.
  - rewrite (map2_nth accumulate zero_counters zero_counters zero_counters) by lia. f_equal.
    destruct (is_nil (vals a)) eqn:Z; auto. apply is_nil_spec in Z. rewrite Z, resize_nil, nth_repeat_any. now destruct s.
Qed.
Theorem base_stream b a s : abase counters zero_counters accumulate b = Some a -> metrics_base (stream s b) = nth s (vals a) zero_counters.
Proof.
  revert a. induction b as [k a | bare l IH] using abatch_ind2; intros c E.
  - cbn in *. congruence.
  - cbn [abase] in E. unfold total_accs in E. cbn [stream metrics_base].
    assert (G : forall l, Forall (fun b => forall a, abase counters zero_counters accumulate b = Some a -> metrics_base (stream s b) = nth s (vals a) zero_counters) l -> forall a0 c,
      fold_left (add_opt counters zero_counters accumulate) (map (abase counters zero_counters accumulate) l) (Some a0) = Some c ->
      fold_left (fun acc x => accumulate acc (metrics_base x)) (map (stream s) l) (nth s (vals a0) zero_counters) = nth s (vals c) zero_counters).
    { clear. induction l as [| x l IHl]; intros F a0 c E; cbn [map fold_left] in *; [ congruence |].
      inversion F; subst. destruct (abase counters zero_counters accumulate x) as [ax |] eqn:Ex; cbn [add_opt] in E; [| rewrite total_none in E; discriminate ].
      destruct (acc_add counters zero_counters accumulate a0 ax) as [a1 |] eqn:E1; [| rewrite total_none in E; discriminate ].
      rewrite (H1 ax eq_refl). destruct (add_stream a0 ax a1 s E1) as [V _]. rewrite <- V. now apply IHl. }
    specialize (G l IH _ _ E). cbn [new_acc vals repeat] in G. now destruct s.
Qed.
Lemma outputs_stream s b : outputs (stream s b) = aoutputs b.
Proof.
  induction b as [k a | bare l IH] using abatch_ind2; auto. cbn [stream outputs aoutputs]. induction l as [| x l IHl]; auto.
  inversion IH; subst. cbn [map fold_right]. rewrite H1, IHl; auto.
Qed.

(** the scalar average over the children *)
Fixpoint average1 (l : list (Z * option calc)) : option calc :=
  match l with
  | [] => None
  | (n, m) :: r => if n =? 0 then average1 r else fold_left (fun o x => if 0 <? fst x then merge_opt o (snd x) else o) r m
  end.
Lemma get_average of l : get_metrics of (Group false l) = average1 (map (fun x => (outputs x, get_metrics of x)) l).
Proof.
  cbn [get_metrics]. induction l as [| x l IH]; auto. cbn [map average1]. destruct (outputs x =? 0); auto.
  generalize (get_metrics of x). clear IH x. induction l as [| y l IH]; intros o; auto. cbn [map fold_left fst snd]. rewrite <- IH. reflexivity.
Qed.

Section Streams.
Variable of : counters -> metrics.
Notation aget := (aget counters zero_counters accumulate metrics of merge).
Definition at_stream (s : nat) (o : option (acalc metrics)) (p : option calc) : Prop :=
  forall a, o = Some a -> (s < List.length (mets a))%nat -> p = Some (nth s (mets a) (of zero_counters), weight a).
Lemma merge_stream s a b pa pb : at_stream s a pa -> at_stream s b pb ->
  (forall x y, a = Some x -> b = Some y -> List.length (mets x) = List.length (mets y) -> True) ->
  at_stream s (acalc_merge_opt metrics merge a b) (merge_opt pa pb).
Proof.
  intros Ha Hb _ c E L. destruct a as [x |]; [| discriminate ]. destruct b as [y |]; [| discriminate ]. cbn [acalc_merge_opt] in E. unfold acalc_merge in E.
  destruct (negb _) eqn:N in E; [ discriminate |]. apply negb_false_iff, Nat.eqb_eq in N. injection E as <-. cbn [mets weight] in *.
  rewrite map2_len in L by auto. rewrite (Ha x eq_refl) by auto. rewrite (Hb y eq_refl) by lia. cbn [merge_opt].
  rewrite (map2_nth _ (of zero_counters) (of zero_counters)) by auto. unfold merge. reflexivity.
Qed.
Lemma merge_none_l b : acalc_merge_opt metrics merge None b = None.
Proof. reflexivity. Qed.
Theorem average_stream b s : at_stream s (aget b) (get_metrics of (stream s b)).
Proof.
  induction b as [k a | bare l IH] using abatch_ind2.
  - intros c E L. cbn [EvalArrays.aget] in E. unfold calc_of in E. destruct (_ =? _)%nat; [| discriminate ]. injection E as <-. cbn [mets weight] in *.
    cbn [stream get_metrics]. rewrite map_length in L. f_equal. f_equal. symmetry. apply map_nth.
  - destruct bare.
    + intros c E L. cbn [EvalArrays.aget] in E. destruct (abase _ _ _ _) as [a |] eqn:Ea in E; [| discriminate ].
      unfold calc_of in E. destruct (_ =? _)%nat; [| discriminate ]. injection E as <-. cbn [mets weight] in *. rewrite map_length in L.
      change (get_metrics of (stream s (AGroup true l))) with (Some (of (metrics_base (stream s (AGroup true l))), 1)).
      rewrite (base_stream _ a s Ea). f_equal. f_equal. symmetry. apply map_nth.
    + cbn [EvalArrays.aget stream]. rewrite get_average, map_map. induction l as [| x l IHl]; [ intros c E; discriminate |].
      inversion IH; subst. cbn [map aaverage average1]. rewrite outputs_stream. destruct (aoutputs x =? 0); [ now apply IHl |].
      clear IHl IH. revert H1. generalize (aget x), (get_metrics of (stream s x)). clear x. revert H2.
      induction l as [| y l IHl]; intros F o p Ho; cbn [map fold_left]; [ exact Ho |]. inversion F; subst. apply IHl; auto. cbn [fst snd]. rewrite outputs_stream.
      destruct (0 <? aoutputs y); [| exact Ho ]. apply merge_stream; auto.
Qed.
(** and it exists *)
Lemma outputs_child l : fold_right (fun x s => wrap (aoutputs x + s)) 0 l <> 0 -> exists x : abatch counters, In x l /\ aoutputs x <> 0.
Proof.
  induction l as [| x l IH]; cbn; [ congruence |]. intros H. destruct (Z.eq_dec (aoutputs x) 0) as [E | E]; [| eauto ].
  rewrite E in H. destruct IH as (y & I & Y); [| eauto ]. intros Z. apply H. now rewrite Z.
Qed.
Theorem average_defined n b : aoutputs b <> 0 -> evaluated n b -> exists a, aget b = Some a /\ List.length (mets a) = n.
Proof.
  revert n. induction b as [k a | bare l IH] using abatch_ind2; intros n O V.
  - cbn in *. destruct V as [V N]. unfold calc_of. rewrite V, N, Nat.eqb_refl. eexists. split; eauto. cbn. now rewrite map_length.
  - destruct bare.
    + cbn [EvalArrays.aget]. destruct (full_base counters zero_counters accumulate n (AGroup true l) V) as (a & E & [Va Na]).
      match goal with |- context [abase ?A ?z ?d ?b] => replace (abase A z d b) with (Some a) by (symmetry; exact E) end.
      unfold calc_of. rewrite Va, Na, Nat.eqb_refl. eexists. split; eauto. cbn. now rewrite map_length.
    + apply evaluated_group in V. cbn [EvalArrays.aget]. cbn [aoutputs] in O. destruct (outputs_child l O) as (x0 & I0 & X0). clear O.
      revert I0. induction l as [| x l IHl]; intros I0; [ destruct I0 |]. apply Forall_cons_iff in IH as [Hx Hl]. apply Forall_cons_iff in V as [Vx Vl]. cbn [map aaverage].
      destruct (aoutputs x =? 0) eqn:Z.
      * apply Z.eqb_eq in Z. destruct I0 as [-> | I0]; [ congruence |]. apply IHl; auto.
      * apply Z.eqb_neq in Z. destruct (Hx n Z (Vx Z)) as (a & E & L). rewrite E. clear - Hl Vl L.
        revert a L. induction l as [| y l IHl]; intros a L; cbn [map fold_left]; [ eauto |]. apply Forall_cons_iff in Hl as [Hy Hl]. apply Forall_cons_iff in Vl as [Vy Vl]. cbn [fst snd].
        destruct (0 <? aoutputs y) eqn:P; [| now apply IHl ]. apply Z.ltb_lt in P. destruct (Hy n ltac:(lia) (Vy ltac:(lia))) as (c & Ec & Lc).
        rewrite Ec. cbn [acalc_merge_opt]. unfold acalc_merge. rewrite L, Lc, Nat.eqb_refl. cbn [negb]. apply IHl; auto. cbn [mets]. rewrite map2_len; congruence.
Qed.
End Streams.

(** *** reduced rows *)
Lemma fold_add_field (f : metrics -> Q) : In f fields -> forall r m, (f (fold_left met_add r m) == f m + qsum (map f r))%Q.
Proof.
  intros I r. induction r as [| x r IH]; intros m; cbn [fold_left map qsum fold_right]; [ ring |]. rewrite IH.
  assert (E : (f (met_add m x) == f m + f x)%Q) by (repeat destruct I as [<- | I]; [ reflexivity .. | destruct I ]). rewrite E. unfold qsum. ring.
Qed.
Lemma div_field (f : metrics -> Q) m n : In f fields -> f (met_div m n) = (f m / inject_Z n)%Q.
Proof. intros I. repeat destruct I as [<- | I]; [ reflexivity .. | destruct I ]. Qed.
Lemma len_pos {A} (x : A) l : ~ (inject_Z (Z.of_nat (List.length (x :: l))) == 0)%Q.
Proof. cbn [List.length]. rewrite Nat2Z.inj_succ. unfold Qeq. cbn. lia. Qed.
Theorem reduce_mean a : mets a <> [] -> exists m, reduce_calc a = Some (m, 1) /\ forall f, In f fields -> is_mean (f m) (map f (mets a)).
Proof.
  intros N. unfold reduce_calc. destruct (mets a) as [| m r]; [ congruence |]. eexists. split; [ reflexivity |]. intros f I. split; [ discriminate |].
  rewrite div_field, fold_add_field, map_length by auto. cbn [map qsum fold_right]. unfold qsum. cbn [fold_right]. field. apply len_pos.
Qed.
Lemma reduce_fails a : mets a = [] -> reduce_calc a = None.
Proof. unfold reduce_calc. now intros ->. Qed.
Lemma sfold_add_field (f : smetrics -> Q) : In f sfields -> forall r m, (f (fold_left smet_add r m) == f m + qsum (map f r))%Q.
Proof.
  intros I r. induction r as [| x r IH]; intros m; cbn [fold_left map qsum fold_right]; [ ring |]. rewrite IH.
  assert (E : (f (smet_add m x) == f m + f x)%Q) by (repeat destruct I as [<- | I]; [ reflexivity .. | destruct I ]). rewrite E. unfold qsum. ring.
Qed.
Lemma sdiv_field (f : smetrics -> Q) m n : In f sfields -> f (smet_div m n) = (f m / inject_Z n)%Q.
Proof. intros I. repeat destruct I as [<- | I]; [ reflexivity .. | destruct I ]. Qed.
Theorem sreduce_mean a : mets a <> [] -> exists m, sreduce_calc a = Some m /\ forall f, In f sfields -> is_mean (f m) (map f (mets a)).
Proof.
  intros N. unfold sreduce_calc. destruct (mets a) as [| m r]; [ congruence |]. eexists. split; [ reflexivity |]. intros f I. split; [ discriminate |].
  rewrite sdiv_field, sfold_add_field, map_length by auto. cbn [map qsum fold_right]. unfold qsum. cbn [fold_right]. field. apply len_pos.
Qed.
Lemma merge_field (f : metrics -> Q) m w m2 w2 : In f fields -> 0 < w + w2 < 18446744073709551616 ->
  f (fst (merge (m, w) (m2, w2))) = ((f m2 * inject_Z w2 + f m * inject_Z w) / inject_Z (w + w2))%Q.
Proof. intros I R. cbn [merge fst]. rewrite wrap_small by lia. repeat destruct I as [<- | I]; [ reflexivity .. | destruct I ]. Qed.
Lemma qsum_merge (f : metrics -> Q) w w2 : In f fields -> 0 < w + w2 < 18446744073709551616 -> forall l r, List.length l = List.length r ->
  (qsum (map f (map2 (fun x y => fst (merge (x, w) (y, w2))) l r)) == (qsum (map f r) * inject_Z w2 + qsum (map f l) * inject_Z w) / inject_Z (w + w2))%Q.
Proof.
  intros I R. assert (NZ : ~ (inject_Z (w + w2) == 0)%Q) by (unfold Qeq; cbn; lia).
  induction l as [| x l IH]; intros [| y r] L; try discriminate.
  - cbn [map2 map qsum fold_right]. field. exact NZ.
  - cbn [map2 map qsum fold_right]. rewrite merge_field by auto. cbn in L. unfold qsum in IH. rewrite IH by congruence. field. exact NZ.
Qed.
Theorem reduce_merge a b c ra rb f : acalc_merge metrics merge a b = Some c -> reduce_calc a = Some (ra, 1) -> reduce_calc b = Some (rb, 1) ->
  0 < weight a + weight b < 18446744073709551616 -> In f fields ->
  exists rc, reduce_calc c = Some (rc, 1) /\ (f rc == f (fst (merge (ra, weight a) (rb, weight b))))%Q.
Proof.
  intros E Ea Eb R I. assert (NZ : ~ (inject_Z (weight a + weight b) == 0)%Q) by (unfold Qeq; cbn; lia).
  unfold acalc_merge in E. destruct (negb _) eqn:L in E; [ discriminate |]. apply negb_false_iff, Nat.eqb_eq in L. injection E as <-.
  assert (Na : mets a <> []) by (intros Z; rewrite (reduce_fails a Z) in Ea; discriminate).
  assert (Nb : mets b <> []) by (intros Z; rewrite (reduce_fails b Z) in Eb; discriminate).
  destruct (reduce_mean a Na) as (ma & Ea' & Ma). destruct (reduce_mean b Nb) as (mb & Eb' & Mb). rewrite Ea in Ea'. injection Ea' as <-. rewrite Eb in Eb'. injection Eb' as <-.
  set (c := ACalc _ _ _). destruct (reduce_mean c) as (mc & Ec & Mc).
  { unfold c. cbn [mets]. destruct (mets a); [ congruence |]. destruct (mets b); [ discriminate | cbn; discriminate ]. }
  exists mc. split; [ exact Ec |]. destruct (Ma f I) as [_ Ma']. destruct (Mb f I) as [_ Mb']. destruct (Mc f I) as [_ Mc']. unfold c in Mc'. cbn [mets] in Mc'.
  rewrite (qsum_merge f (weight a) (weight b) I R (mets a) (mets b) L) in Mc'. rewrite merge_field by auto. rewrite !map_length, map2_len in * by auto. rewrite <- L in Mb'.
  assert (NL : ~ (inject_Z (Z.of_nat (List.length (mets a))) == 0)%Q) by (destruct (mets a); [ congruence | apply len_pos ]).
  rewrite <- Ma', <- Mb' in Mc'. apply (Qmult_inj_r _ _ (inject_Z (Z.of_nat (List.length (mets a)))) NL). rewrite Mc'. field. exact NZ.
Qed.

(** *** disparity errors *)
Theorem errors_total l e : fold_left merge_errors l e = DE (vErrors e ++ flat_map vErrors l) (fold_left (fun s x => wrap (s + nDCs x)) l (nDCs e)).
Proof. revert e. induction l as [| x l IH]; intros e; cbn [fold_left flat_map]; [ now destruct e; rewrite app_nil_r |]. rewrite IH. unfold merge_errors. cbn [vErrors nDCs]. now rewrite app_assoc. Qed.
Lemma dc_total l s : 0 <= s < 18446744073709551616 -> fold_left (fun s x => wrap (s + nDCs x)) l s = wrap (s + zsum_list (map nDCs l)).
Proof.
  revert s. induction l as [| x l IH]; intros s H; cbn [fold_left map zsum_list fold_right]; [ rewrite Z.add_0_r; symmetry; now apply wrap_small |].
  rewrite IH by apply wrap_range. rewrite wrap_l. f_equal. unfold zsum_list. lia.
Qed.
Theorem full_leaves n (b : abatch counters) : full n b -> forall k a, In (k, a) (aleaves b) -> shaped n a.
Proof.
  induction b as [k a | bare l IH] using abatch_ind2; intros F k' a' I.
  - destruct I as [E | []]. injection E as <- <-. exact F.
  - apply full_group in F as [_ F]. cbn [aleaves] in I. apply in_flat_map in I as (x & Ix & I). rewrite Forall_forall in *. now apply (IH x Ix (F x Ix) k').
Qed.
Lemma leaves_stream s b : leaves (stream s b) = map (fun p => (fst p, nth s (vals (snd p)) zero_counters)) (aleaves b).
Proof.
  induction b as [k a | bare l IH] using abatch_ind2; auto. cbn [stream leaves aleaves]. induction l as [| x l IHl]; auto.
  inversion IH; subst. cbn [map flat_map]. rewrite map_app. rewrite H1, IHl; auto.
Qed.
Theorem total_streams n b s : full n b -> (s < n)%nat -> (forall k a, In (k, a) (aleaves b) -> good (nth s (vals a) zero_counters)) ->
  exists a, abase counters zero_counters accumulate b = Some a /\ shaped n a /\ nth s (vals a) zero_counters = summed (map (fun p => nth s (vals (snd p)) zero_counters) (aleaves b)).
Proof.
  intros F H G. destruct (full_base counters zero_counters accumulate n b F) as (a & E & Sa). exists a. repeat split; try apply Sa; auto.
  rewrite <- (base_stream b a s E), base_sum.
  - rewrite leaves_stream, map_map. reflexivity.
  - intros k c I. rewrite leaves_stream in I. apply in_map_iff in I as ((k' & a') & E' & I). cbn in E'. injection E' as <- <-. now apply (G k').
Qed.

(** averages of disparity metrics *)
Lemma smerge_field f a b : In f sfields -> 0 < snd a + snd b < 18446744073709551616 ->
  snd (smerge a b) = snd a + snd b /\ (f (fst (smerge a b)) * inject_Z (snd a + snd b) == f (fst a) * inject_Z (snd a) + f (fst b) * inject_Z (snd b))%Q.
Proof.
  destruct a as [m w], b as [m2 w2]. cbn [fst snd]. intros I B. unfold smerge. assert (W : wrap (w + w2) = w + w2) by (unfold wrap; apply Z.mod_small; lia). rewrite W. cbn [fst snd]. split; [ reflexivity |].
  assert (N : ~ (inject_Z (w + w2) == 0)%Q) by (unfold Qeq; cbn; lia).
  cbn in I. repeat (destruct I as [<-|I]; [ cbn [dBad05 dBad1 dBad2 dBad4 dAverageError dRMS]; field; exact N |]). destruct I.
Qed.
Lemma smerge_all f l : In f sfields -> Forall (fun x => 0 < snd x) l -> forall a, 0 < snd a -> snd a + fold_right (fun (x : smetrics * Z) s => snd x + s) 0 l < 18446744073709551616 ->
  let r := fold_left smerge l a in snd r = snd a + fold_right (fun x s => snd x + s) 0 l /\
  (f (fst r) * inject_Z (snd r) == f (fst a) * inject_Z (snd a) + fold_right (fun x s => f (fst x) * inject_Z (snd x) + s) 0 l)%Q.
Proof.
  intros I P. induction P as [|x l X P IH]; intros a A B; cbn [fold_left fold_right] in *; [ split; [ lia | ring ] |].
  assert (T : 0 <= fold_right (fun (x : smetrics * Z) s => snd x + s) 0 l) by (clear - P; induction P; cbn; lia).
  destruct (smerge_field f a x I ltac:(lia)) as (S1 & S2). destruct (IH (smerge a x) ltac:(lia) ltac:(lia)) as (R1 & R2). split; [ lia |]. cbv zeta in R2. rewrite R2, S1, S2. ring.
Qed.
