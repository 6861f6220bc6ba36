From Coq Require Import ZArith List Lia Bool.
From Verif Require Import Model.MatSize Spec.MatSize.
Import ListNotations.
Open Scope Z_scope.

Lemma cast_id t x : 0 < bits t -> in_range t x -> cast t x = x.
Proof.
  unfold cast, in_range. intros Hb H. destruct (sgn t).
  - assert (E : 2 ^ bits t = 2 * 2 ^ (bits t - 1)) by (rewrite <- Z.pow_succ_r by lia; f_equal; lia).
    set (h := 2 ^ (bits t - 1)) in *. destruct (Z_lt_le_dec x 0).
    + assert (M : x mod 2 ^ bits t = x + 2 ^ bits t) by (symmetry; apply (Z.mod_unique _ _ (-1)); lia).
      rewrite M. destruct (Z.ltb_spec (x + 2 ^ bits t) h); lia.
    + rewrite Z.mod_small by lia. destruct (Z.ltb_spec x h); lia.
  - now rewrite Z.mod_small.
Qed.
Lemma cast_range t x : 0 < bits t -> in_range t (cast t x).
Proof.
  unfold cast, in_range. intro Hb.
  assert (E : 2 ^ bits t = 2 * 2 ^ (bits t - 1)) by (rewrite <- Z.pow_succ_r by lia; f_equal; lia).
  assert (0 < 2 ^ (bits t - 1)) by (apply Z.pow_pos_nonneg; lia).
  pose proof (Z.mod_pos_bound x (2 ^ bits t) ltac:(lia)). destruct (sgn t); [| lia ].
  destruct (Z.ltb_spec (x mod 2 ^ bits t) (2 ^ (bits t - 1))); lia.
Qed.

Definition wf (t : ity) (m : msize) : Prop := Forall (fun x => in_range t x /\ 0 <= x) m.

Lemma eq_loop_spec t a b : 0 < bits t -> wf t b -> length a = length b -> eq_loop t a b = true <-> a = b.
Proof.
  intros Hb F. revert a. induction F as [|y b [Hy _] F IH]; intros [|x a] L; cbn in L; try discriminate.
  - cbn. split; auto.
  - cbn [eq_loop]. rewrite (cast_id t y) by auto. destruct (Z.eqb_spec x y).
    + rewrite IH by lia. subst. split; [ now intros -> | intro X; injection X; auto ].
    + split; [ discriminate | intro X; injection X; congruence ].
Qed.
Lemma eqb_spec t a b : 0 < bits t -> wf t b -> eqb t a b = true <-> (empty a = true /\ empty b = true) \/ a = b.
Proof.
  intros Hb F. unfold eqb. destruct (empty a) eqn:Ea, (empty b) eqn:Eb; cbn [andb].
  1: { split; auto. }
  all: assert (Q : (if negb (Nat.eqb (length a) (length b)) then false
     else if Nat.eqb (length a) 2 then (nth 0 a 0 =? cast t (nth 0 b 0)) && (nth 1 a 0 =? cast t (nth 1 b 0)) else eq_loop t a b) = true <-> a = b);
   [| rewrite Q; intuition congruence ].
  all: destruct (Nat.eqb_spec (length a) (length b)) as [L|L]; cbn [negb]; [| split; [ discriminate | intros ->; congruence ] ].
  all: destruct (Nat.eqb_spec (length a) 2) as [L2|L2]; [| now apply eq_loop_spec ].
  all: destruct a as [|x [|x' [|? ?]]]; cbn in L2; try discriminate; destruct b as [|y [|y' [|? ?]]]; cbn in L; try discriminate.
  all: inversion F as [|? ? [Hy _] F1]; subst; inversion F1 as [|? ? [Hy' _] F2]; subst; cbn [nth]; rewrite !cast_id by auto.
  all: rewrite andb_true_iff, !Z.eqb_eq; split; [ intros []; congruence | intro X; injection X; auto ].
Qed.
Lemma eqb_equivalence t a b c : 0 < bits t -> wf t a -> wf t b -> wf t c ->
  eqb t a a = true /\ (eqb t a b = eqb t b a) /\ (eqb t a b = true -> eqb t b c = true -> eqb t a c = true).
Proof.
  intros Hb Fa Fb Fc. split; [ apply eqb_spec; auto |]. split.
  - apply eq_true_iff_eq. rewrite !eqb_spec by auto. intuition congruence.
  - rewrite !eqb_spec by auto. intuition (subst; auto; intuition).
Qed.

Lemma fold_total r acc : Forall (fun x => 0 <= x < 2^64) r -> 0 <= acc < 2^64 ->
  fold_left (fun acc s => (acc * cast T_size_t s) mod 2 ^ 64) r acc = (acc * fold_right Z.mul 1 r) mod 2^64.
Proof.
  intro F. revert acc. induction F as [|x r Hx F IH]; intros acc Ha; cbn [fold_left fold_right].
  - rewrite Z.mul_1_r, Z.mod_small; auto.
  - rewrite IH by (apply Z.mod_pos_bound; lia). rewrite Z.mul_mod_idemp_l by lia. f_equal.
    assert (E : cast T_size_t x = x) by (apply cast_id; [ cbn; lia | exact Hx ]). rewrite E. ring.
Qed.
Lemma total_mod m : Forall (fun x => 0 <= x < 2^64) m -> total m = elements m mod 2^64.
Proof.
  destruct 1 as [|x r Hx F]; [ reflexivity |]. unfold total, elements.
  assert (E : cast T_size_t x = x) by (apply cast_id; [ cbn; lia | exact Hx ]). rewrite E.
  rewrite fold_total by auto. reflexivity.
Qed.
Lemma prod_nonneg m : Forall (fun x => 0 <= x) m -> 0 <= fold_right Z.mul 1 m.
Proof. induction 1; cbn [fold_right]; [ lia | nia ]. Qed.
Lemma elements_nonneg m : Forall (fun x => 0 <= x) m -> 0 <= elements m.
Proof. intro F. destruct m; [ cbn; lia |]. now apply prod_nonneg. Qed.
Lemma total_exact m : Forall (fun x => 0 <= x < 2^64) m -> elements m < 2^64 -> total m = elements m.
Proof.
  intros F H. rewrite total_mod by auto. apply Z.mod_small. split; [| auto ].
  apply elements_nonneg. eapply Forall_impl; [| exact F ]. cbv beta. lia.
Qed.
Lemma prod_zero m : Forall (fun x => 0 <= x) m -> (fold_right Z.mul 1 m = 0 <-> In 0 m).
Proof.
  induction 1 as [|x m Hx F IH]; cbn [fold_right In]; [ split; [ discriminate | tauto ] |].
  rewrite <- IH. pose proof (prod_nonneg m F). split; [ intro E; apply Z.mul_eq_0 in E; intuition | intros [ -> | E ]; [ lia | rewrite E; lia ] ].
Qed.
Lemma empty_iff m : Forall (fun x => 0 <= x < 2^64) m -> elements m < 2^64 -> (empty m = true <-> m = [] \/ In 0 m).
Proof.
  intros F H. unfold empty. rewrite Z.eqb_eq, total_exact by auto.
  destruct m as [|x m]; [ cbn; tauto |]. unfold elements. rewrite prod_zero by (eapply Forall_impl; [| exact F ]; cbv beta; lia).
  split; [ auto | intros [E|E]; [ discriminate | exact E ] ].
Qed.
Lemma empty_wraps : exists m, Forall (fun x => 0 < x < 2^64) m /\ empty m = true /\ eqb T_size_t m [0; 3] = true.
Proof. exists [2^32; 2^32]. split; [ repeat constructor; lia |]. split; vm_compute; reflexivity. Qed.

Lemma transpose_spec t r c : 0 < bits t -> wf t [r; c] ->
  transpose t [r; c] = Some [c; r] /\ elements [c; r] = elements [r; c] /\ transpose t [c; r] = Some [r; c].
Proof.
  intros Hb F. inversion F as [|? ? [Hr Pr] F1]; subst. inversion F1 as [|? ? [Hc Pc] F2]; subst.
  unfold transpose, mk_explicit. cbn [map]. rewrite !cast_id by auto. cbn [forallb].
  destruct (Z.leb_spec 0 r), (Z.leb_spec 0 c); try lia. cbn [andb]. repeat split. unfold elements. cbn [fold_right]. ring.
Qed.
Lemma transpose_total t r c : 0 < bits t <= 64 -> wf t [r; c] -> total [c; r] = total [r; c].
Proof.
  intros Hb F. inversion F as [|? ? [Hr Pr] F1]; subst. inversion F1 as [|? ? [Hc Pc] F2]; subst.
  assert (B : forall x, in_range t x -> 0 <= x -> 0 <= x < 2^64).
  { intros x Hx P. split; auto. unfold in_range in Hx. destruct (sgn t).
    - assert (2 ^ (bits t - 1) <= 2^64) by (apply Z.pow_le_mono_r; lia). lia.
    - assert (2 ^ bits t <= 2^64) by (apply Z.pow_le_mono_r; lia). lia. }
  rewrite !total_mod by (repeat constructor; apply B; auto). unfold elements. cbn [fold_right]. f_equal. ring.
Qed.

Lemma cross_type_asymmetric : exists a b, mk_explicit T_u8 [44; 7] = Some a /\ mk_explicit T_int [300; 7] = Some b /\
  eqb T_u8 a b = true /\ eqb T_int b a = false.
Proof. exists [44; 7], [300; 7]. repeat split. Qed.
Lemma cross_type_sym t u a b : 0 < bits t -> 0 < bits u -> wf t a -> wf u a -> wf t b -> wf u b -> eqb t a b = eqb u b a.
Proof. intros. apply eq_true_iff_eq. rewrite !eqb_spec by auto. intuition congruence. Qed.

Lemma explicit_negative : mk_explicit T_int [-1; 5] = None /\ exists m, mk_explicit T_size_t [-1; 5] = Some m /\ nth 0 m 0 = 2^64 - 1.
Proof. split; [ reflexivity |]. eexists. split; [ reflexivity | reflexivity ]. Qed.

Lemma cvsize_roundtrip t w h : 0 < bits t -> 0 <= w < 2^31 -> 0 <= h < 2^31 -> in_range t w -> in_range t h ->
  exists m, of_cvsize t (w, h) = Some m /\ to_cvsize m = Some (w, h) /\ eq_cvsize m (w, h) = true /\ length m = 2%nat.
Proof.
  intros Hb Hw Hh Rw Rh. unfold of_cvsize. cbn [fst snd]. destruct (Z.leb_spec 0 w), (Z.leb_spec 0 h); try lia. cbn [andb].
  eexists. split; [ reflexivity |]. rewrite !cast_id by auto. unfold eq_cvsize, to_cvsize.
  rewrite !(cast_id T_int) by (cbn; lia). cbn [fst snd]. rewrite !Z.eqb_refl. auto.
Qed.
Lemma eq_not_congruence : exists a b s, eqb T_size_t a b = true /\ eq_cvsize a s = true /\ eq_cvsize b s = false.
Proof. exists [0; 7], [], (7, 0). repeat split. Qed.
Lemma one_dim_cvsize : exists a b s, of_cvsize T_size_t s = Some b /\ eq_cvsize a s = true /\ eq_cvsize b s = true /\ eqb T_size_t a b = false /\ empty a = false.
Proof. exists [5], [1; 5], (5, 1). repeat split. Qed.

Lemma cvtSizes_rejects t l : (cvtSizes t l = None <-> exists x, In x l /\ cast T_int x < 0) /\
  (Forall (fun x => - 2^31 <= x < 2^31) l -> (cvtSizes t l = None <-> exists x, In x l /\ x < 0)) /\
  (forall m, cvtSizes t l = Some m -> m = map (cast t) l).
Proof.
  assert (A : cvtSizes t l = None <-> exists x, In x l /\ cast T_int x < 0).
  { unfold cvtSizes. destruct (forallb (fun x => 0 <=? cast T_int x) l) eqn:E; split.
    - discriminate.
    - intros (x & I & N). rewrite forallb_forall in E. specialize (E x I). apply Z.leb_le in E. lia.
    - intros _. induction l as [|a l IH]; [ discriminate |]. cbn [forallb] in E. destruct (Z.leb_spec 0 (cast T_int a)) as [P|P].
      + destruct (IH E) as (x & I & N). exists x. split; [ now right | exact N ]. + exists a. split; [ now left | exact P ].
    - reflexivity. }
  split; [ exact A |]. split.
  - intro F. rewrite A. rewrite Forall_forall in F. split; intros (x & I & N); exists x; (split; [ exact I |]); specialize (F x I); rewrite cast_id in * by (cbn; lia); exact N.
  - unfold cvtSizes. destruct (forallb _ l); [ congruence | discriminate ].
Qed.
