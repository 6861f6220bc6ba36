From Coq Require Import ZArith List Bool Lia.
From Verif Require Import Lib.Grid Model.EdgeDetector Spec.EdgeDetector Proofs.Thinning.
Import ListNotations.
Open Scope Z_scope.

Section Hyst.
Variables (H W : Z) (cand strong : Z -> Z -> bool).
Hypothesis HW : 0 <= W.
(** nothing in the first and last image row *)
Hypothesis top : forall c, cand 0 c = false.
Hypothesis bottom : forall c, cand (H - 1) c = false.

Let ins (x : Z * Z) : Prop := inside_image H W x.
Definition is_cand (x : Z * Z) : Prop := inside_image H W x /\ cand (fst x) (snd x) = true.
Definition is_strong (x : Z * Z) : Prop := strong (fst x) (snd x) = true.
Definition sh (x : Z * Z) : Z * Z := (fst x, snd x + 2).
Definition val (s : state) (x : Z * Z) : Z := mp s (fst x) (snd x + 2).

Inductive linked (S : Z * Z -> Prop) : Z * Z -> Prop :=
| linked_here p : S p -> linked S p
| linked_next p q : linked S p -> adjacent p q -> is_cand q -> linked S q.
Lemma linked_mono (S T : Z * Z -> Prop) x : (forall p, S p -> T p) -> linked S x -> linked T x.
Proof. intros M L. induction L; [ apply linked_here; auto | eapply linked_next; eauto ]. Qed.

Lemma cand_rows x : is_cand x -> 1 <= fst x <= H - 2.
Proof.
  intros [[I _] C]. destruct (Z.eq_dec (fst x) 0) as [E|E]. { rewrite E, top in C. discriminate. }
  destruct (Z.eq_dec (fst x) (H - 1)) as [E'|E']. { rewrite E', bottom in C. discriminate. } lia.
Qed.
Lemma inmap_in p q : 0 <= p < H + 4 -> 0 <= q < W + 4 -> inmap H W p q = true.
Proof. intros A B. unfold inmap. apply andb_true_iff. split; [ apply Z.leb_le | apply Z.ltb_lt ]; nia. Qed.
Lemma sh_inj x y : sh x = sh y -> x = y.
Proof. destruct x, y. unfold sh. cbn [fst snd]. intro E. assert (z = z1) by congruence. assert (z0 + 2 = z2 + 2) by congruence. f_equal; lia. Qed.

Lemma eupd_same f p q v : eupd f p q v p q = v.
Proof. unfold eupd. now rewrite !Z.eqb_refl. Qed.
Lemma eupd_other f p q v y x : (y, x) <> (p, q) -> eupd f p q v y x = f y x.
Proof. intro N. unfold eupd. destruct (Z.eqb_spec y p), (Z.eqb_spec x q); cbn [andb]; auto. subst. congruence. Qed.
Lemma eupd_val s x v : eupd (mp s) (fst x) (snd x + 2) v (fst x) (snd x + 2) = v.
Proof. apply eupd_same. Qed.

(** ** the labelling scan *)
Definition frame (f0 f : emap) : Prop := forall y x, ~ 0 <= y < H -> f y x = f0 y x.
Definition padded (lo : Z) (f : emap) : Prop := forall y x, lo <= y < H -> (0 <= x < 2 \/ W + 2 <= x < W + 4) -> f y x = 1.
Definition done (p c : Z) (x : Z * Z) : Prop := ins x /\ (p < fst x \/ (fst x = p /\ snd x < c)).
Definition seeds (s : state) (x : Z * Z) : Prop := In (sh x) (stk s).
Record Scan (f0 : emap) (p c : Z) (s : state) : Prop := MkScan {
  sc_no : forall x, done p c x -> cand (fst x) (snd x) = false -> val s x = 1;
  sc_yes : forall x, done p c x -> cand (fst x) (snd x) = true -> val s x = 0 \/ (val s x = 2 /\ In (sh x) (stk s));
  sc_stk : forall y, In y (stk s) -> exists x, y = sh x /\ done p c x /\ is_cand x /\ is_strong x /\ val s x = 2;
  sc_conn : forall x, done p c x -> is_cand x -> is_strong x -> linked (seeds s) x;
  sc_nb : nbmax s = true -> 0 < c /\ is_cand (p, c - 1) /\ linked (seeds s) (p, c - 1);
  sc_cap : Z.of_nat (length (stk s)) + (W - c) <= cap s;
  sc_frame : frame f0 (mp s);
  sc_pad : padded p (mp s) }.

Lemma adj_prev p c : adjacent (p, c - 1) (p, c).
Proof. unfold adjacent. cbn [fst snd]. lia. Qed.
Lemma adj_below p c : adjacent (p + 1, c) (p, c).
Proof. unfold adjacent. cbn [fst snd]. lia. Qed.
Lemma done_next p c x : done p (c + 1) x <-> done p c x \/ (x = (p, c) /\ ins x).
Proof.
  unfold done. destruct x as [y z]. cbn [fst snd]. split.
  - intros [I [L|[E L]]]; [ left; auto |]. destruct (Z.eq_dec z c) as [->|]; [ right; split; auto; congruence | left; split; auto; right; lia ].
  - intros [[I [L|[E L]]]|[E I]]; split; auto. { right. lia. } assert (y = p /\ z = c) as [-> ->] by (split; congruence). right. lia.
Qed.
Lemma done_not_here p c x : done p c x -> x <> (p, c).
Proof. intros [_ [L|[E L]]] E'; subst x; cbn [fst snd] in *; lia. Qed.

Lemma scan_pixel f0 p c s : 0 <= p < H -> 0 <= c < W -> Scan f0 p c s ->
  exists s', label_pixel H W cand strong p (Some s) c = Some s' /\ Scan f0 p (c + 1) s'.
Proof.
  intros Hp Hc [No Yes Stk Conn Nb Cap Fr Pad].
  assert (Iin : inside_image H W (p, c)) by (split; cbn [fst snd]; lia).
  assert (Oth : forall x v, done p c x -> eupd (mp s) p (c + 2) v (fst x) (snd x + 2) = val s x).
  { intros x v D. apply eupd_other. intro E. apply (done_not_here _ _ _ D). destruct x as [y z]. cbn [fst snd] in *. assert (y = p) by congruence. assert (z + 2 = c + 2) by congruence. f_equal; lia. }
  assert (FrU : forall v, frame f0 (eupd (mp s) p (c + 2) v)).
  { intros v y x N. rewrite eupd_other; auto. intro E. apply N. assert (y = p) by congruence. lia. }
  assert (PadU : forall v, padded p (eupd (mp s) p (c + 2) v)).
  { intros v y x N X. rewrite eupd_other; auto. intro E. assert (x = c + 2) by congruence. lia. }
  unfold label_pixel. destruct (cand p c) eqn:C.
  2:{ eexists. split; [ reflexivity |]. constructor; cbn [mp stk cap nbmax]; auto.
    - intros x D Cx. apply done_next in D. destruct D as [D|[-> _]]; [ unfold val; cbn [mp]; rewrite Oth; auto | apply eupd_same ].
    - intros x D Cx. apply done_next in D. destruct D as [D|[-> _]]; [ unfold val; cbn [mp]; rewrite Oth; auto | cbn [fst snd] in Cx; congruence ].
    - intros y Iy. destruct (Stk y Iy) as (x & -> & D & Cx & Sx & V). exists x. repeat split; try apply Cx; auto.
      + apply done_next. auto. + unfold val. cbn [mp]. rewrite Oth; auto.
    - intros x D Cx Sx. apply done_next in D. destruct D as [D|[-> _]]; [ now apply Conn | destruct Cx as [_ Cx]; cbn [fst snd] in Cx; congruence ].
    - discriminate.
    - lia. }
  rewrite inmap_in by lia. cbn [negb].
  assert (Cc : is_cand (p, c)) by (split; auto).
  destruct (negb (nbmax s) && strong p c && negb (mp s (p + 1) (c + 2) =? 2)) eqn:G.
  - apply andb_true_iff in G. destruct G as [G G3]. apply andb_true_iff in G. destruct G as [G1 G2].
    unfold push. rewrite inmap_in by lia. replace (Z.of_nat (length (stk s)) <? cap s) with true by (symmetry; apply Z.ltb_lt; lia).
    cbn [andb]. eexists. split; [ reflexivity |]. constructor; cbn [mp stk cap nbmax].
    + intros x D Cx. apply done_next in D. destruct D as [D|[-> _]]; [ unfold val; cbn [mp]; rewrite Oth; auto | cbn [fst snd] in Cx; congruence ].
    + intros x D Cx. apply done_next in D. destruct D as [D|[-> _]].
      * unfold val. cbn [mp]. rewrite Oth by auto. destruct (Yes x D Cx) as [V|[V I]]; auto. right. split; auto. now right.
      * right. split; [ apply eupd_same | now left ].
    + intros y [<-|Iy].
      * exists (p, c). split; auto. split; [ apply done_next; auto |]. split; auto. split; auto. apply eupd_same.
      * destruct (Stk y Iy) as (x & -> & D & Cx & Sx & V). exists x. split; auto. split; [ apply done_next; auto |]. split; auto. split; auto.
        unfold val. cbn [mp]. now rewrite Oth.
    + intros x D Cx Sx. apply done_next in D. destruct D as [D|[-> _]].
      * eapply linked_mono; [| now apply Conn ]. intros q Q. now right.
      * apply linked_here. now left.
    + intros _. split; [ lia |]. replace (c + 1 - 1) with c by lia. split; auto. apply linked_here. now left.
    + cbn [length]. lia.
    + apply FrU. + apply PadU.
  - eexists. split; [ reflexivity |]. constructor; cbn [mp stk cap nbmax]; auto.
    + intros x D Cx. apply done_next in D. destruct D as [D|[-> _]]; [ unfold val; cbn [mp]; rewrite Oth; auto | cbn [fst snd] in Cx; congruence ].
    + intros x D Cx. apply done_next in D. destruct D as [D|[-> _]]; [ unfold val; cbn [mp]; rewrite Oth; auto | left; apply eupd_same ].
    + intros y Iy. destruct (Stk y Iy) as (x & -> & D & Cx & Sx & V). exists x. split; auto. split; [ apply done_next; auto |]. split; auto. split; auto.
      unfold val. cbn [mp]. now rewrite Oth.
    + intros x D Cx Sx. apply done_next in D. destruct D as [D|[-> _]]; [ now apply Conn |].
      destruct (nbmax s) eqn:NB.
      * destruct (Nb eq_refl) as (Pc & Cp & Lp). exact (linked_next _ _ _ Lp (adj_prev p c) Cc).
      * unfold is_strong in Sx. cbn [fst snd] in Sx. rewrite Sx in G. cbn [negb andb] in G. apply negb_false_iff in G. apply Z.eqb_eq in G.
        assert (p < H - 1). { pose proof (cand_rows _ Cc) as R. cbn [fst] in R. lia. }
        assert (D : done p c (p + 1, c)). { split; [ split; cbn [fst snd]; lia |]. left. cbn [fst]. lia. }
        assert (cand (p + 1) c = true) as Cb. { destruct (cand (p + 1) c) eqn:E; auto. pose proof (No _ D E) as V. unfold val in V. cbn [fst snd] in V. lia. }
        destruct (Yes _ D Cb) as [V|[V I]]. { unfold val in V. cbn [fst snd] in V. lia. }
        exact (linked_next _ (p + 1, c) (p, c) (linked_here _ _ I) (adj_below p c) Cc).
    + intro NB. destruct (Nb NB) as (Pc & Cp & Lp). split; [ lia |]. replace (c + 1 - 1) with c by lia. split; auto.
      exact (linked_next _ _ _ Lp (adj_prev p c) Cc).
    + lia.
Qed.

Lemma scan_pixels f0 p : 0 <= p < H -> forall n c s, 0 <= c -> c + Z.of_nat n <= W -> Scan f0 p c s ->
  exists s', fold_left (label_pixel H W cand strong p) (zseq c n) (Some s) = Some s' /\ Scan f0 p (c + Z.of_nat n) s'.
Proof.
  intros Hp. induction n as [|n IH]; intros c s H0 Hn I.
  - exists s. split; auto. replace (c + Z.of_nat 0) with c by lia. auto.
  - rewrite zseq_S. cbn [fold_left]. destruct (scan_pixel f0 p c s Hp ltac:(lia) I) as (s1 & -> & I1).
    destruct (IH (c + 1) s1 ltac:(lia) ltac:(lia) I1) as (s2 & E & I2). exists s2. split; auto.
    replace (c + Z.of_nat (S n)) with (c + 1 + Z.of_nat n) by lia. auto.
Qed.

Lemma done_row p x : done (p - 1) 0 x <-> done p W x.
Proof.
  unfold done. split.
  - intros [I [L|[E L]]]; split; auto; [| destruct I as [_ I]; lia ].
    destruct (Z.eq_dec (fst x) p); [ right; split; auto; destruct I; lia | left; lia ].
  - intros [I [L|[E L]]]; split; auto; left; lia.
Qed.
(** between rows *)
Lemma scan_start f0 p s : 0 <= p < H -> (forall x, done p 0 x <-> done (p + 1) W x) -> Scan f0 (p + 1) W s -> Scan f0 p 0 (start_row W p s).
Proof.
  intros Hp Dn [No Yes Stk Conn Nb Cap Fr Pad].
  assert (Oth : forall x, done (p + 1) W x -> val (start_row W p s) x = val s x).
  { intros x [I D]. unfold val, start_row, stack_check. cbn [mp]. destruct (Z.eqb_spec (fst x) p) as [E|E]; cbn [andb]; auto. lia. }
  constructor.
  - intros x D C. apply Dn in D. rewrite Oth; auto.
  - intros x D C. apply Dn in D. rewrite Oth by auto. exact (Yes x D C).
  - intros y I. destruct (Stk y I) as (x & -> & D & Cx & Sx & V). exists x. rewrite Oth by auto. apply Dn in D. auto.
  - intros x D C S. apply Dn in D. exact (Conn x D C S).
  - cbn. discriminate.
  - unfold start_row, stack_check. cbn [stk cap]. destruct (Z.ltb_spec (cap s) (Z.of_nat (length (stk s)) + W)); lia.
  - intros y x N. unfold start_row, stack_check. cbn [mp]. destruct (Z.eqb_spec y p) as [E|E]; cbn [andb]; [ lia | now apply Fr ].
  - intros y x N X. unfold start_row, stack_check. cbn [mp]. destruct (Z.eqb_spec y p) as [E|E]; cbn [andb].
    + replace (((0 <=? x) && (x <? 2)) || ((W + 2 <=? x) && (x <? W + 4))) with true; auto. symmetry. apply orb_true_iff.
      destruct X; [ left | right ]; apply andb_true_iff; rewrite Z.leb_le, Z.ltb_lt; lia.
    + apply Pad; auto. lia.
Qed.
Lemma zseq_snoc a n : zseq a (S n) = zseq a n ++ [a + Z.of_nat n].
Proof. replace (S n) with (n + 1)%nat by lia. rewrite zseq_app. f_equal. unfold zseq. cbn [seq map]. f_equal. lia. Qed.
Lemma scan_rows f0 : forall n s, Z.of_nat n <= H -> Scan f0 (Z.of_nat n) W s ->
  exists s', fold_left (label_row H W cand strong) (rev (zseq 0 n)) (Some s) = Some s' /\ Scan f0 0 W s'.
Proof.
  induction n as [|n IH]; intros s Hn I.
  - exists s. split; auto.
  - rewrite zseq_snoc, rev_app_distr. cbn [rev app fold_left].
    assert (Scan f0 (Z.of_nat n) 0 (start_row W (0 + Z.of_nat n) s)) as I0.
    { rewrite Z.add_0_l. apply scan_start; try lia. { intro x. pose proof (done_row (Z.of_nat n + 1) x) as D. replace (Z.of_nat n + 1 - 1) with (Z.of_nat n) in D by lia. exact D. }
      replace (Z.of_nat n + 1) with (Z.of_nat (S n)) by lia. auto. }
    unfold label_row at 2. unfold zrange.
    destruct (scan_pixels f0 (Z.of_nat n) ltac:(lia) (Z.to_nat W) 0 _ ltac:(lia) ltac:(lia) I0) as (s1 & E & I1).
    rewrite Z.add_0_l in *. rewrite E. apply IH; [ lia |]. rewrite Z2Nat.id in I1 by lia. auto.
Qed.
Lemma scan_all stale oldcap : 0 <= H -> exists s, label_all H W cand strong (init H W stale oldcap) = Some s /\ Scan (mp (init H W stale oldcap)) 0 W s.
Proof.
  intro H0. unfold label_all, zrange. apply scan_rows; [ lia |]. rewrite Z2Nat.id by lia.
  assert (N : forall x, ~ done H W x). { intros x [[I _] [L|[E L]]]; lia. }
  constructor.
  - intros x D. destruct (N x D).
  - intros x D. destruct (N x D).
  - intros y [].
  - intros x D. destruct (N x D).
  - discriminate.
  - unfold init. cbn [stk cap length]. lia.
  - intros y x _. reflexivity.
  - intros y x L. lia.
Qed.

(** ** the flood fill *)
Definition grown (s : state) (x : Z * Z) : Prop := ins x /\ val s x = 2.
Record Fill (f0 : emap) (skip : Z * Z -> Prop) (s : state) : Prop := MkFill {
  fl_no : forall x, ins x -> cand (fst x) (snd x) = false -> val s x = 1;
  fl_yes : forall x, ins x -> cand (fst x) (snd x) = true -> val s x = 0 \/ (val s x = 2 /\ edge is_cand is_strong x);
  fl_stk : forall y, In y (stk s) -> exists x, y = sh x /\ ins x /\ val s x = 2;
  fl_closed : forall x, grown s x -> skip x \/ In (sh x) (stk s) \/ (forall z, is_cand z -> adjacent x z -> val s z = 2);
  fl_strong : forall x, is_cand x -> is_strong x -> linked (grown s) x;
  fl_frame : frame f0 (mp s);
  fl_pad : padded 0 (mp s) }.

Lemma linked_cand (S : Z * Z -> Prop) x : (forall p, S p -> is_cand p) -> linked S x -> is_cand x.
Proof. intros M L. induction L; auto. Qed.
Lemma linked_edge (S : Z * Z -> Prop) x : (forall p, S p -> edge is_cand is_strong p) -> linked S x -> edge is_cand is_strong x.
Proof. intros M L. induction L; auto. eapply edge_next; eauto. Qed.

Lemma fill_start f0 s : Scan f0 0 W s -> Fill f0 (fun _ => False) s.
Proof.
  intros [No Yes Stk Conn Nb Cap Fr Pad].
  assert (D : forall x, ins x -> done 0 W x). { intros x [I J]. split; [ split; auto |]. destruct (Z.eq_dec (fst x) 0); [ right; lia | left; lia ]. }
  constructor; auto.
  - intros x I C. destruct (Yes x (D x I) C) as [V|[V J]]; auto. right. split; auto.
    destruct (Stk _ J) as (x' & E & _ & Cx & Sx & _). apply sh_inj in E. subst x'. now apply edge_strong.
  - intros y I. destruct (Stk y I) as (x & -> & [J _] & _ & _ & V). exists x. auto.
  - intros x [I V]. right. left. destruct (cand (fst x) (snd x)) eqn:C.
    + destruct (Yes x (D x I) C) as [V'|[_ J]]; auto. lia.
    + rewrite (No x (D x I) C) in V. lia.
  - intros x C S. eapply linked_mono; [| apply Conn; auto; apply D, C ]. intros q Q. destruct (Stk _ Q) as (x' & E & [J _] & _ & _ & V). apply sh_inj in E. subst x'. split; auto.
Qed.

Definition zeros (s : state) : Z := count (fun x => val s x =? 0) (grid 0 H 0 W).
Lemma zeros_push s x : ins x -> val s x = 0 -> forall st c n, zeros (St (eupd (mp s) (fst x) (snd x + 2) 2) st c n) <= zeros s - 1.
Proof.
  intros I V st c n. unfold zeros.
  enough (count (fun y => val (St (eupd (mp s) (fst x) (snd x + 2) 2) st c n) y =? 0) (grid 0 H 0 W) < count (fun y => val s y =? 0) (grid 0 H 0 W)) by lia.
  apply (count_strict _ _ _ x).
  2:{ destruct x as [a b]. apply in_grid. destruct I as [I1 I2]. cbn [fst snd] in *. lia. }
  2:{ apply Z.eqb_eq. exact V. }
  2:{ unfold val. cbn [mp]. rewrite eupd_same. reflexivity. }
  - intros y Iy Ey. unfold val in Ey. cbn [mp] in Ey. destruct (Z.eq_dec (fst y) (fst x)) as [E1|E1]; [ destruct (Z.eq_dec (snd y) (snd x)) as [E2|E2] |].
    + rewrite E1, E2, eupd_same in Ey. discriminate.
    + rewrite eupd_other in Ey; auto. intro E. assert (snd y + 2 = snd x + 2) by congruence. lia.
    + rewrite eupd_other in Ey; auto. intro E. congruence.
Qed.

Definition near (n : Z * Z) : Prop := 0 <= fst n < H /\ 0 <= snd n < W + 4.
(** one neighbour *)
Lemma fill_visit f0 x0 s n : edge is_cand is_strong x0 -> ins x0 -> val s x0 = 2 -> near n -> (forall z, ins z -> sh z = n -> adjacent x0 z) ->
  Z.of_nat (length (stk s)) < cap s -> Fill f0 (eq x0) s ->
  exists s', visit H W (Some s) n = Some s' /\ Fill f0 (eq x0) s' /\ cap s' = cap s /\ Z.of_nat (length (stk s')) <= Z.of_nat (length (stk s)) + 1 /\
    2 * zeros s' + Z.of_nat (length (stk s')) <= 2 * zeros s + Z.of_nat (length (stk s)) /\
    (forall z, val s z = 2 -> val s' z = 2) /\ (forall z, is_cand z -> sh z = n -> val s' z = 2).
Proof.
  intros E0 I0 V0 [Np Nq] Adj Cap F. destruct F as [No Yes Stk Clo Str Fr Pad].
  unfold visit. rewrite inmap_in by lia. cbn [negb].
  destruct (Z.eqb_spec (mp s (fst n) (snd n)) 0) as [Z0|Z0].
  - (* an image candidate *)
    destruct (Z_lt_dec (snd n) 2) as [L|L]. { rewrite (Pad (fst n) (snd n)) in Z0 by lia. discriminate. }
    destruct (Z_lt_dec (W + 1) (snd n)) as [L'|L']. { rewrite (Pad (fst n) (snd n)) in Z0 by lia. discriminate. }
    set (z := (fst n, snd n - 2)). assert (Sz : sh z = n). { unfold sh, z. destruct n. cbn [fst snd]. f_equal; lia. }
    assert (Iz : ins z). { split; unfold z; cbn [fst snd]; lia. }
    assert (Vz : val s z = 0). { unfold val, z. cbn [fst snd]. replace (snd n - 2 + 2) with (snd n) by lia. auto. }
    assert (Cz : is_cand z). { split; auto. destruct (cand (fst z) (snd z)) eqn:C; auto. rewrite (No z Iz C) in Vz. discriminate. }
    assert (Ez : edge is_cand is_strong z) by (eapply edge_next; eauto).
    unfold push. rewrite inmap_in by lia. replace (Z.of_nat (length (stk s)) <? cap s) with true by (symmetry; apply Z.ltb_lt; lia). cbn [andb].
    eexists. split; [ reflexivity |].
    assert (Ex : forall st c b x, val (St (eupd (mp s) (fst n) (snd n) 2) st c b) x = if (fst x =? fst z) && (snd x =? snd z) then 2 else val s x).
    { intros. unfold val. cbn [mp]. unfold eupd, z. cbn [fst snd]. destruct (Z.eqb_spec (fst x) (fst n)), (Z.eqb_spec (snd x + 2) (snd n)), (Z.eqb_spec (snd x) (snd n - 2)); cbn [andb]; auto; lia. }
    assert (Mono : forall st c b x, val s x = 2 -> val (St (eupd (mp s) (fst n) (snd n) 2) st c b) x = 2). { intros. rewrite Ex. destruct (_ && _); auto. }
    assert (Here : forall st c b, val (St (eupd (mp s) (fst n) (snd n) 2) st c b) z = 2). { intros. rewrite Ex. now rewrite !Z.eqb_refl. }
    split.
    { constructor; cbn [mp stk].
      - intros x I C. rewrite Ex. destruct (Z.eqb_spec (fst x) (fst z)) as [E1|E1], (Z.eqb_spec (snd x) (snd z)) as [E2|E2]; cbn [andb]; auto.
        destruct Cz as [_ Cz]. rewrite E1, E2 in C. congruence.
      - intros x I C. rewrite Ex. destruct (Z.eqb_spec (fst x) (fst z)) as [E1|E1], (Z.eqb_spec (snd x) (snd z)) as [E2|E2]; cbn [andb]; auto.
        right. split; auto. destruct x as [a b]. cbn [fst snd] in *. replace (a, b) with z; auto. destruct z. cbn [fst snd] in *. congruence.
      - intros y [<-|Iy]. { exists z. split; [ symmetry; rewrite <- Sz at 1; destruct n; cbn [fst snd]; auto |]. split; auto. }
        destruct (Stk y Iy) as (x & -> & I & V). exists x. split; auto.
      - intros x [I V]. rewrite Ex in V. destruct (Z.eqb_spec (fst x) (fst z)) as [E1|E1], (Z.eqb_spec (snd x) (snd z)) as [E2|E2]; cbn [andb] in V.
        { right. left. left. destruct n as [a b]. unfold sh, z in *. cbn [fst snd] in *. f_equal; lia. }
        all: destruct (Clo x (conj I V)) as [K|[K|K]]; [ now left | right; left; now right | right; right; intros; apply Mono; eauto ].
      - intros x C S. eapply linked_mono; [| exact (Str x C S) ]. intros q [I V]. split; auto.
      - intros y x N. rewrite eupd_other; auto. intro E. assert (y = fst n) by congruence. lia.
      - intros y x N X. rewrite eupd_other; auto. intro E. assert (x = snd n) by congruence. lia. }
    cbn [cap stk length]. split; auto. split; [ lia |].
    assert (zeros (St (eupd (mp s) (fst n) (snd n) 2) ((fst n, snd n) :: stk s) (cap s) (nbmax s)) <= zeros s - 1) as Zd.
    { pose proof (zeros_push s z Iz Vz ((fst n, snd n) :: stk s) (cap s) (nbmax s)) as P. unfold z in P at 1 2. cbn [fst snd] in P. replace (snd n - 2 + 2) with (snd n) in P by lia. exact P. }
    split; [ lia |]. split; auto. intros y Cy Sy. rewrite <- Sz in Sy. apply sh_inj in Sy. subst y. auto.
  - exists s. split; auto. split; [ constructor; auto |]. split; auto. split; [ lia |]. split; [ lia |]. split; auto.
    intros z Cz Sz. destruct Cz as [Iz Cz]. destruct (Yes z Iz Cz) as [V|[V _]]; auto. unfold val in V. rewrite <- Sz in Z0. cbn [sh fst snd] in Z0. congruence.
Qed.
Lemma fill_visits f0 x0 : edge is_cand is_strong x0 -> ins x0 -> forall ns s, val s x0 = 2 -> (forall n, In n ns -> near n) ->
  (forall n z, In n ns -> ins z -> sh z = n -> adjacent x0 z) ->
  Z.of_nat (length (stk s)) + Z.of_nat (length ns) <= cap s -> Fill f0 (eq x0) s ->
  exists s', fold_left (visit H W) ns (Some s) = Some s' /\ Fill f0 (eq x0) s' /\
    2 * zeros s' + Z.of_nat (length (stk s')) <= 2 * zeros s + Z.of_nat (length (stk s)) /\
    (forall z, val s z = 2 -> val s' z = 2) /\ (forall z, is_cand z -> In (sh z) ns -> val s' z = 2).
Proof.
  intros E0 I0. induction ns as [|n ns IH]; intros s V0 Nr Adj Cap F.
  - exists s. split; auto. split; auto. split; [ lia |]. split; auto. intros z _ [].
  - cbn [fold_left]. cbn [length] in Cap.
    destruct (fill_visit f0 x0 s n E0 I0 V0 (Nr n (or_introl eq_refl)) (fun z => Adj n z (or_introl eq_refl)) ltac:(lia) F) as (s1 & -> & F1 & C1 & L1 & M1 & Mo & Hd).
    destruct (IH s1) as (s2 & E2 & F2 & M2 & Mo2 & Hd2); auto.
    { intros m Im. apply Nr. now right. } { intros m z Im. apply Adj. now right. } { lia. }
    exists s2. split; auto. split; auto. split; [ lia |]. split; auto. intros z Cz [Sz|Sz]; auto.
Qed.
Lemma near_neighbours x n : is_cand x -> In n (neighbours (fst x) (snd x + 2)) -> near n.
Proof.
  intros C I. pose proof (cand_rows x C) as R. destruct C as [[_ J] _]. unfold neighbours in I. cbn [In] in I. unfold near.
  repeat destruct I as [<-|I]; cbn [fst snd]; try lia.
Qed.
Lemma neighbours_adjacent x n z : In n (neighbours (fst x) (snd x + 2)) -> sh z = n -> adjacent x z.
Proof.
  intros I E. subst n. unfold neighbours in I. unfold sh, adjacent in *. destruct z as [a b]. cbn [In fst snd] in *.
  repeat destruct I as [E|I]; try (assert (A := f_equal fst E); assert (B := f_equal snd E); cbn [fst snd] in A, B; lia). destruct I.
Qed.
Lemma adjacent_neighbours x z : adjacent x z -> z = x \/ In (sh z) (neighbours (fst x) (snd x + 2)).
Proof.
  unfold adjacent, sh, neighbours. destruct x as [a b], z as [c d]. cbn [fst snd In]. intros [A B].
  assert (c = a - 1 \/ c = a \/ c = a + 1) as Hc by lia. assert (d = b - 1 \/ d = b \/ d = b + 1) as Hd by lia.
  destruct Hc as [-> |[-> | -> ]], Hd as [-> |[-> | -> ]]; auto;
    right; repeat first [ left; f_equal; lia | right ].
Qed.
Lemma fill_weaken f0 x0 s : Fill f0 (eq x0) s -> (forall z, is_cand z -> adjacent x0 z -> val s z = 2) -> Fill f0 (fun _ => False) s.
Proof.
  intros [No Yes Stk Clo Str Fr Pad] A. constructor; auto. intros x G. destruct (Clo x G) as [<-|[K|K]]; auto.
Qed.
Lemma flood_runs f0 : forall fuel s, 2 * zeros s + Z.of_nat (length (stk s)) <= Z.of_nat fuel -> Fill f0 (fun _ => False) s ->
  exists s', flood H W fuel s = Some s' /\ stk s' = [] /\ Fill f0 (fun _ => False) s'.
Proof.
  assert (ZN : forall s, 0 <= zeros s) by (intro; apply count_nonneg).
  induction fuel as [|k IH]; intros s M F.
  - destruct (stk s) as [|a r] eqn:Es. { exists s. unfold flood. rewrite Es. auto. } specialize (ZN s). cbn [length] in M. lia.
  - cbn [flood]. destruct (stk s) as [|[p q] r] eqn:Es. { exists s. auto. }
    cbn [stack_check stk]. rewrite Es.
    assert (exists x, (p, q) = sh x /\ ins x /\ val s x = 2) as (x & Ex & Ix & Vx) by (apply (fl_stk _ _ _ F); rewrite Es; now left).
    assert (is_cand x /\ edge is_cand is_strong x) as [Cx Edx].
    { destruct (cand (fst x) (snd x)) eqn:C. { destruct (fl_yes _ _ _ F x Ix C) as [V|[_ E]]; [ congruence | repeat split; auto; apply Ix ]. } rewrite (fl_no _ _ _ F x Ix C) in Vx. discriminate. }
    assert (p = fst x /\ q = snd x + 2) as [-> ->] by (unfold sh in Ex; split; congruence).
    set (cp := if cap s <? Z.of_nat (length (stk s)) + 8 then Z.max (cap s * 2) (Z.of_nat (length (stk s)) + 8) else cap s).
    assert (Z.of_nat (length r) + 1 + 8 <= cp) as Hcp. { unfold cp. rewrite Es. cbn [length]. destruct (Z.ltb_spec (cap s) (Z.of_nat (S (length r)) + 8)); lia. }
    assert (Fill f0 (eq x) (St (mp s) r cp (nbmax s))) as F1.
    { destruct F as [No Yes Stk Clo Str Fr Pad]. constructor; auto.
      - intros y Iy. apply Stk. rewrite Es. now right.
      - intros z G. destruct (Clo z G) as [[]|[K|K]]; auto. rewrite Es in K. destruct K as [K|K]; auto. left. apply sh_inj. unfold sh at 1. congruence. }
    destruct (fill_visits f0 x Edx Ix (neighbours (fst x) (snd x + 2)) (St (mp s) r cp (nbmax s)) Vx) as (s2 & E2 & F2 & M2 & Mo & Hd); auto.
    { intros n In_. eapply near_neighbours; eauto. } { intros n z In_ _ E. eapply neighbours_adjacent; eauto. } { cbn [stk cap length neighbours]. lia. }
    cbn [mp cap nbmax stack_check]. fold cp. rewrite E2.
    apply IH.
    + change (zeros (St (mp s) r cp (nbmax s))) with (zeros s) in M2. cbn [stk] in M2. cbn [length] in M. lia.
    + eapply fill_weaken; eauto. intros z Cz A. destruct (adjacent_neighbours x z A) as [->|J]; auto.
Qed.
Lemma fill_result f0 s : stk s = [] -> Fill f0 (fun _ => False) s -> forall x, ins x -> (val s x = 2 <-> edge is_cand is_strong x).
Proof.
  intros Es F. assert (Clo : forall x z, grown s x -> is_cand z -> adjacent x z -> val s z = 2).
  { intros x z G C A. destruct (fl_closed _ _ _ F x G) as [[]|[K|K]]; [ rewrite Es in K; destruct K | auto ]. }
  assert (L : forall x, linked (grown s) x -> grown s x). { intros x K. induction K as [p G|p q K IH A C]; auto. split; [ apply C | eapply Clo; eauto ]. }
  assert (Ed : forall x, edge is_cand is_strong x -> grown s x).
  { intros x K. induction K as [p C S|p q K IH A C]; [ apply L, (fl_strong _ _ _ F); auto | split; [ apply C | eapply Clo; eauto ] ]. }
  intros x I. split.
  - intro V. destruct (cand (fst x) (snd x)) eqn:C.
    + destruct (fl_yes _ _ _ F x I C) as [V'|[_ K]]; auto. congruence.
    + rewrite (fl_no _ _ _ F x I C) in V. discriminate.
  - intro K. apply (Ed x K).
Qed.
Lemma flood_more k1 k2 s s' : (k1 <= k2)%nat -> flood H W k1 s = Some s' -> flood H W k2 s = Some s'.
Proof.
  revert k2 s. induction k1 as [|k IH]; intros [|k2] s L E; auto; try lia.
  - cbn [flood] in *. destruct (stk s); auto. discriminate.
  - cbn [flood] in *. destruct (stk s) as [|e0 r0]; auto. destruct (stk (stack_check s 8)) as [|[p q] r]; auto.
    destruct (fold_left _ _ _); auto. apply IH; auto. lia.
Qed.

(** the whole second phase *)
Theorem hysteresis_result stale oldcap : 0 <= H ->
  exists fuel0 s, (forall fuel, (fuel0 <= fuel)%nat -> hysteresis H W cand strong fuel stale oldcap = Some s) /\
    (forall x, ins x -> (val s x = 2 <-> edge is_cand is_strong x)) /\
    (forall x, ins x -> val s x = 0 \/ val s x = 1 \/ val s x = 2) /\
    (forall y x, ~ 0 <= y < H -> mp s y x = mp (init H W stale oldcap) y x).
Proof.
  intro H0. destruct (scan_all stale oldcap H0) as (s0 & E0 & S0). pose proof (fill_start _ _ S0) as F0.
  set (n := Z.to_nat (2 * zeros s0 + Z.of_nat (length (stk s0)))).
  destruct (flood_runs _ n s0 ltac:(unfold n; pose proof (count_nonneg (fun x => val s0 x =? 0) (grid 0 H 0 W)); unfold zeros; lia) F0) as (s1 & E1 & Es & F1).
  exists n, s1. split. { intros fuel L. unfold hysteresis. rewrite E0. eapply flood_more; eauto. }
  split. { apply (fill_result _ _ Es F1). } split.
  - intros x I. destruct (cand (fst x) (snd x)) eqn:C; [ destruct (fl_yes _ _ _ F1 x I C) as [V|[V _]]; auto | right; left; exact (fl_no _ _ _ F1 x I C) ].
  - intros p q N. exact (fl_frame _ _ _ F1 p q N).
Qed.
End Hyst.
