From Coq Require Import List Arith Bool ZArith Lia.
From Verif Require Import Model.AutoBuffer Spec.AutoBuffer.
Import ListNotations.
Open Scope nat_scope.

(** the object is self-contained: static mode, or sole owner of a live block of its capacity *)
Definition wf (h : nat -> option (list cell)) (o : nat) (ob : obj) : Prop :=
  1 <= nst ob /\ length (stat ob) = nst ob /\
  ((ptr ob = PStatic o /\ dyn ob = None /\ cap ob = nst ob) \/
   (exists b l, ptr ob = PHeap b /\ dyn ob = Some b /\ h b = Some l /\ cap ob = length l)).

Definition owns (w : world) (o b : nat) : Prop := exists ob, objs w o = Some ob /\ dyn ob = Some b.

Record Inv (w : world) : Prop := {
  i_wf : forall o ob, objs w o = Some ob -> wf (heap w) o ob;
  i_disj : forall o o' b, owns w o b -> owns w o' b -> o = o';
  i_noleak : forall b, heap w b <> None -> exists o, owns w o b;
  i_next : forall b, heap w b <> None -> b < next w }.
Definition Fits (w : world) : Prop := forall o ob, objs w o = Some ob -> used ob <= cap ob /\ 1 <= cap ob.

Lemma fupd_eq {T} (f : nat -> T) i v : fupd f i v i = v.
Proof. unfold fupd. now rewrite Nat.eqb_refl. Qed.
Lemma fupd_ne {T} (f : nat -> T) i v j : j <> i -> fupd f i v j = f j.
Proof. unfold fupd. intro H. apply Nat.eqb_neq in H. now rewrite H. Qed.

Lemma owns_live w o b : Inv w -> owns w o b -> exists l, heap w b = Some l.
Proof.
  intros I (ob & Ho & Hd). destruct (i_wf w I o ob Ho) as (_ & _ & [ (_ & E & _) | (b' & l & _ & E & H & _) ]).
  - congruence.
  - exists l. congruence.
Qed.

Lemma owns_lt w o b : Inv w -> owns w o b -> b < next w.
Proof. intros I H. destruct (owns_live w o b I H) as [l L]. apply (i_next w I). congruence. Qed.

(** the frame rule: a step that only touches the objects in [T], the blocks they own and the next fresh block keeps the invariant
    as long as the touched objects are well-formed and own exactly the touched live blocks *)
Lemma Inv_frame w w' (T : nat -> Prop) :
  Inv w ->
  (forall x, T x \/ ~ T x) ->
  (forall x, ~ T x -> objs w' x = objs w x) ->
  (forall b, (forall x, T x -> ~ owns w x b) -> b <> next w -> heap w' b = heap w b) ->
  next w <= next w' -> (forall b, heap w' b <> None -> b < next w \/ b < next w') ->
  (forall x ob, T x -> objs w' x = Some ob -> wf (heap w') x ob) ->
  (forall x b, T x -> owns w' x b -> (exists y, T y /\ owns w y b) \/ b = next w) ->
  (forall x y b, T x -> T y -> owns w' x b -> owns w' y b -> x = y) ->
  (forall b, heap w' b <> None -> (exists y, T y /\ owns w y b) \/ b = next w -> exists x, T x /\ owns w' x b) ->
  Inv w'.
Proof.
  intros I dec Ho Hh Hn Hnb Hwf Hown Hdis Hleak.
  assert (Hfr : forall x b, ~ T x -> owns w x b -> (forall y, T y -> ~ owns w y b) /\ b <> next w).
  { intros x b Hx Hb. split.
    - intros y Hy Hyb. assert (x = y) by (eapply i_disj; eauto). subst. auto.
    - pose proof (owns_lt w x b I Hb). lia. }
  assert (Hsame : forall x b, ~ T x -> (owns w' x b <-> owns w x b)).
  { intros x b Hx. unfold owns. now rewrite Ho by auto. }
  constructor.
  - intros x ob Hx. destruct (dec x) as [Hxt|Hxt]; [ now apply Hwf |].
    rewrite Ho in Hx by auto. destruct (i_wf w I x ob Hx) as (A & B & D). repeat split; auto.
    destruct D as [D|(b & l & D1 & D2 & D3 & D4)]; [ now left |].
    right. exists b, l. repeat split; auto.
    destruct (Hfr x b Hxt) as [F1 F2]; [ now exists ob |]. now rewrite Hh.
  - intros x y b Hx Hy. destruct (dec x) as [Tx|Tx], (dec y) as [Ty|Ty].
    + now apply (Hdis x y b).
    + exfalso. apply Hsame in Hy; auto. destruct (Hfr y b Ty Hy) as [F1 F2].
      destruct (Hown x b Tx Hx) as [(z & Tz & Oz)|]; [ now apply (F1 z) | congruence ].
    + exfalso. apply Hsame in Hx; auto. destruct (Hfr x b Tx Hx) as [F1 F2].
      destruct (Hown y b Ty Hy) as [(z & Tz & Oz)|]; [ now apply (F1 z) | congruence ].
    + apply Hsame in Hx, Hy; auto. eapply i_disj; eauto.
  - intros b Hb. destruct (Nat.eq_dec b (next w)) as [E|E].
    + destruct (Hleak b Hb (or_intror E)) as (x & _ & Hx). now exists x.
    + destruct (heap w b) as [l|] eqn:L.
      * destruct (i_noleak w I b) as [x Hx]; [ congruence |].
        destruct (dec x) as [Tx|Tx].
        -- destruct (Hleak b Hb) as (y & _ & Hy); [ left; now exists x | now exists y ].
        -- exists x. now apply Hsame.
      * exfalso. apply Hb. rewrite Hh; auto. intros x Tx Hx. destruct (owns_live w x b I Hx). congruence.
  - intros b Hb. destruct (Hnb b Hb); lia.
Qed.

(** contents of the block an object points to *)
Definition content (w : world) (ob : obj) : list cell := match deref w (ptr ob) with Some l => l | None => [] end.

Lemma content_ok w o ob : Inv w -> objs w o = Some ob ->
  deref w (ptr ob) = Some (content w ob) /\ length (content w ob) = cap ob.
Proof.
  intros I H. unfold content. destruct (i_wf w I o ob H) as (A & B & [(P & D & E)|(b & l & P & D & L & E)]).
  - rewrite P. cbn [deref]. rewrite H. split; auto. lia.
  - rewrite P. cbn [deref]. rewrite L. auto.
Qed.

Lemma view_content w o ob : Inv w -> objs w o = Some ob -> view w o = Some (firstn (used ob) (content w ob)).
Proof. intros I H. unfold view. rewrite H. now destruct (content_ok w o ob I H) as (-> & _). Qed.

(** other objects keep their fields and their block's contents *)
Definition Frame (T : nat -> Prop) (w w' : world) : Prop :=
  forall x, ~ T x -> objs w' x = objs w x /\ forall ob, objs w x = Some ob -> content w' ob = content w ob.

Lemma Frame_trans T w1 w2 w3 : Frame T w1 w2 -> Frame T w2 w3 -> Frame T w1 w3.
Proof.
  intros A B x Hx. destruct (A x Hx) as [A1 A2], (B x Hx) as [B1 B2]. split; [ congruence |].
  intros ob H. rewrite B2 by congruence. now apply A2.
Qed.
Lemma Frame_refl T w : Frame T w w. Proof. intros x _. auto. Qed.
Lemma Frame_weaken (T T' : nat -> Prop) w w' : (forall x, T x -> T' x) -> Frame T w w' -> Frame T' w w'.
Proof. intros H F x Hx. apply F. auto. Qed.
Lemma Frame_views T w w' : Inv w -> Inv w' -> Frame T w w' -> same_but T (view w) (view w').
Proof.
  intros I I' F x Hx. destruct (F x Hx) as [A B]. destruct (objs w x) as [ob|] eqn:H.
  - rewrite (view_content w x ob I H), (view_content w' x ob I' A). now rewrite (B ob eq_refl).
  - unfold view. now rewrite H, A.
Qed.

Definition owned (ob : option obj) (b : nat) : bool :=
  match ob with Some ob => match dyn ob with Some d => b =? d | None => false end | None => false end.
Lemma owned_spec w o b : owned (objs w o) b = true <-> owns w o b.
Proof.
  unfold owned, owns. destruct (objs w o) as [ob|]; [| split; [ discriminate | intros (? & ? & _); discriminate ] ].
  destruct (dyn ob) as [d|] eqn:D.
  - rewrite Nat.eqb_eq. split; [ intros ->; now exists ob |]. intros (ob' & E & F). congruence.
  - split; [ discriminate | intros (ob' & E & F); congruence ].
Qed.

(** explicit result of a step on one object: its record becomes [ob'], its own block (if any) holds [c'], a block it no longer
    owns is freed *)
Definition Loc (w : world) (o : nat) (ob' : obj) (c' : list cell) (w' : world) : Prop :=
  (forall x, objs w' x = fupd (objs w) o (Some ob') x) /\
  (forall b, heap w' b = if owned (Some ob') b then Some c' else if owned (objs w o) b then None else heap w b) /\
  next w <= next w' /\
  (forall b, dyn ob' = Some b -> owns w o b \/ (b = next w /\ next w < next w')).

Lemma Loc_inv w o ob' c' w' :
  Inv w -> Loc w o ob' c' w' -> 1 <= nst ob' -> length (stat ob') = nst ob' ->
  (ptr ob' = PStatic o /\ dyn ob' = None /\ cap ob' = nst ob') \/
  (exists b, ptr ob' = PHeap b /\ dyn ob' = Some b /\ cap ob' = length c') ->
  Inv w' /\ Frame (fun x => x = o) w w' /\ objs w' o = Some ob' /\
  content w' ob' = match dyn ob' with Some _ => c' | None => stat ob' end.
Proof.
  intros I (Lo & Lh & Ln & Ld) W1 W2 W3.
  assert (Eo : objs w' o = Some ob') by (rewrite Lo; apply fupd_eq).
  assert (Hho : forall b, (forall x, x = o -> ~ owns w x b) -> b <> next w -> heap w' b = heap w b).
  { intros b H1 H2. rewrite Lh.
    assert (X : owned (objs w o) b = false).
    { destruct (owned (objs w o) b) eqn:E; auto. apply owned_spec in E. now apply H1 in E. }
    assert (Y : owned (Some ob') b = false).
    { destruct (owned (Some ob') b) eqn:E; auto. cbn in E. destruct (dyn ob') as [d|] eqn:D; [| discriminate ].
      apply Nat.eqb_eq in E. subst d. destruct (Ld b eq_refl) as [A|[A _]]; [ now apply (H1 o eq_refl) in A | congruence ]. }
    now rewrite Y, X. }
  assert (I' : Inv w').
  { apply (Inv_frame w w' (fun x => x = o)); auto.
    - intros x. lia.
    - intros x Hx. rewrite Lo. now apply fupd_ne.
    - intros b Hb. rewrite Lh in Hb. destruct (owned (Some ob') b) eqn:E.
      + cbn in E. destruct (dyn ob') as [d|] eqn:D; [| discriminate ]. apply Nat.eqb_eq in E. subst d.
        destruct (Ld b eq_refl) as [A|A]; [ left; eapply owns_lt; eauto | right; lia ].
      + destruct (owned (objs w o) b); [ congruence |]. left. now apply i_next.
    - intros x ob -> Hx. rewrite Eo in Hx. injection Hx as <-. repeat split; auto.
      destruct W3 as [W3|(b & A & B & C)]; [ now left | right; exists b, c'; repeat split; auto ].
      rewrite Lh. cbn. rewrite B, Nat.eqb_refl. reflexivity.
    - intros x b -> (ob & Hob & Hd). assert (ob = ob') by congruence. subst ob.
      destruct (Ld b Hd) as [A|[A _]]; [ left; exists o; auto | now right ].
    - intros x y b -> ->. auto.
    - intros b Hb Hor. exists o. split; auto. exists ob'. split; auto.
      rewrite Lh in Hb. destruct (owned (Some ob') b) eqn:E.
      + cbn in E. destruct (dyn ob') as [d|] eqn:D; [| discriminate ]. apply Nat.eqb_eq in E. now subst.
      + destruct (owned (objs w o) b) eqn:E2; [ congruence |]. destruct Hor as [(y & -> & Hy)| -> ].
        * apply owned_spec in Hy. congruence.
        * exfalso. pose proof (i_next w I _ Hb). lia. }
  split; [ exact I' |]. split; [| split; [ exact Eo |] ].
  - intros x Hx. assert (Ex : objs w' x = objs w x) by (rewrite Lo; now apply fupd_ne). split; auto.
    intros ob Hob. unfold content.
    destruct (i_wf w I x ob Hob) as (_ & _ & [(P & _)|(b & l & P & D & H & _)]); rewrite P; cbn [deref].
    + now rewrite Ex.
    + rewrite Hho; auto.
      * intros y -> Oy. apply Hx. eapply (i_disj w I x o b); auto. now exists ob.
      * assert (b < next w) by (apply (i_next w I); congruence). lia.
  - unfold content. destruct W3 as [(A & B & C)|(b & A & B & C)]; rewrite A, B; cbn [deref].
    + now rewrite Eo.
    + rewrite Lh. cbn. now rewrite B, Nat.eqb_refl.
Qed.

(* ------------------------------------------------ primitives *)
Ltac eqbs := repeat match goal with
  | |- context [?a =? ?b] => destruct (Nat.eqb_spec a b); subst; try congruence; try lia
  end.

Ltac fin E I F O := eexists; eexists; split; [ exact E | split; [ exact I | split; [ exact F | split; [ exact O | cbn [nst used cap stat dyn ptr] ] ] ] ].

(** leaving the heap: assign_dyn None then use_static *)
Lemma to_static_loc w o ob : Inv w -> objs w o = Some ob ->
  exists w', (w1 <- assign_dyn w o None; use_static w1 o) = Some w' /\
    Loc w o (Obj (nst ob) (stat ob) None (PStatic o) (nst ob) (used ob)) [] w'.
Proof.
  intros I H. unfold assign_dyn, use_static, upd_obj, with_obj. rewrite H. unfold free.
  destruct (dyn ob) as [d|] eqn:D.
  - destruct (owns_live w o d I) as [l L]; [ now exists ob |]. cbn. rewrite L. cbn. unfold with_obj; cbn. rewrite fupd_eq. cbn.
    eexists. split; [ reflexivity |]. repeat split; cbn; auto.
    + intro x. unfold fupd. eqbs; auto.
    + intro b. rewrite H. cbn. rewrite D. unfold fupd. eqbs; auto.
    + discriminate.
  - cbn. rewrite fupd_eq. cbn. eexists. split; [ reflexivity |]. repeat split; cbn; auto.
    + intro x. unfold fupd. eqbs; auto.
    + intro b. rewrite H. cbn. now rewrite D.
    + discriminate.
Qed.

Lemma to_static w o ob : Inv w -> objs w o = Some ob ->
  exists w' ob', (w1 <- assign_dyn w o None; use_static w1 o) = Some w' /\ Inv w' /\ Frame (fun x => x = o) w w' /\
    objs w' o = Some ob' /\ nst ob' = nst ob /\ used ob' = used ob /\ cap ob' = nst ob /\ is_dyn ob' = false /\
    content w' ob' = stat ob.
Proof.
  intros I H. destruct (to_static_loc w o ob I H) as (w' & E & L).
  destruct (i_wf w I o ob H) as (A & B & _).
  destruct (Loc_inv _ _ _ _ _ I L A B (or_introl (conj eq_refl (conj eq_refl eq_refl)))) as (I' & F & O & C).
  fin E I' F O. repeat split; auto.
Qed.

Lemma use_dynamic_ok w o ob n : Inv w -> objs w o = Some ob ->
  exists w' ob', use_dynamic w o n = Some w' /\ Inv w' /\ Frame (fun x => x = o) w w' /\
    objs w' o = Some ob' /\ nst ob' = nst ob /\ used ob' = used ob /\ cap ob' = n /\ is_dyn ob' = true /\
    content w' ob' = repeat None n.
Proof.
  intros I H. destruct (i_wf w I o ob H) as (A & B & _).
  assert (L : exists w', use_dynamic w o n = Some w' /\
    Loc w o (Obj (nst ob) (stat ob) (Some (next w)) (PHeap (next w)) n (used ob)) (repeat None n) w').
  { unfold use_dynamic, alloc, assign_dyn, upd_obj, with_obj. cbn [objs]. rewrite H. unfold free, bind.
    destruct (dyn ob) as [d|] eqn:D.
    - destruct (owns_live w o d I) as [l L]; [ now exists ob |].
      pose proof (owns_lt w o d I ltac:(now exists ob)) as Lt. cbn.
      rewrite fupd_ne by lia. rewrite L. cbn. rewrite fupd_eq. cbn.
      eexists. split; [ reflexivity |]. repeat split; cbn; auto.
      + intro x. unfold fupd. eqbs; auto.
      + intro b. rewrite H. cbn. rewrite D. unfold fupd. eqbs; auto.
      + intros b E. right. split; [ congruence | lia ].
    - cbn. rewrite fupd_eq. cbn. eexists. split; [ reflexivity |]. repeat split; cbn; auto.
      + intro x. unfold fupd. eqbs; auto.
      + intro b. rewrite H. cbn. rewrite D. unfold fupd. eqbs; auto.
      + intros b E. right. split; [ congruence | lia ]. }
  destruct L as (w' & E & L). destruct (Loc_inv _ _ _ _ _ I L) as (I' & F & O & C); cbn; auto.
  { right. eexists. repeat split. now rewrite repeat_length. }
  fin E I' F O. repeat split; auto. cbn. apply Nat.eqb_refl.
Qed.

(** overwriting the contents of the current block *)
Lemma store_ok w o ob c : Inv w -> objs w o = Some ob -> length c = cap ob ->
  exists w' ob', store w (ptr ob) c = w' /\ Inv w' /\ Frame (fun x => x = o) w w' /\
    objs w' o = Some ob' /\ nst ob' = nst ob /\ used ob' = used ob /\ cap ob' = cap ob /\ is_dyn ob' = is_dyn ob /\
    dyn ob' = dyn ob /\ ptr ob' = ptr ob /\ content w' ob' = c.
Proof.
  intros I H Hc. destruct (i_wf w I o ob H) as (A & B & [(P & D & E)|(b & l & P & D & L & E)]).
  - assert (L : Loc w o (Obj (nst ob) c (dyn ob) (ptr ob) (cap ob) (used ob)) [] (store w (ptr ob) c)).
    { rewrite P. cbn. rewrite H. repeat split; cbn.
      + intro x. unfold fupd. eqbs; auto.
      + intro b. rewrite H, D; cbn; now rewrite ?D.
      + auto.
      + rewrite D. discriminate. }
    assert (W : length c = nst ob) by lia.
    destruct (Loc_inv _ _ _ _ _ I L A W (or_introl (conj P (conj D E)))) as (I' & F & O & C).
    fin (eq_refl (store w (ptr ob) c)) I' F O. repeat split; auto. cbn [dyn stat] in C. now rewrite D in C.
  - assert (L' : Loc w o (Obj (nst ob) (stat ob) (dyn ob) (ptr ob) (cap ob) (used ob)) c (store w (ptr ob) c)).
    { rewrite P. cbn. repeat split; cbn.
      + intro x. unfold fupd. eqbs; auto. rewrite H. destruct ob; cbn in *; congruence.
      + intro b'. rewrite H. cbn. rewrite D. unfold fupd. eqbs; auto.
      + auto.
      + intros b' E'. left. exists ob. split; auto. }
    destruct (Loc_inv _ _ _ _ _ I L' A B (or_intror (ex_intro _ b (conj P (conj D (eq_sym Hc)))))) as (I' & F & O & C).
    fin (eq_refl (store w (ptr ob) c)) I' F O. repeat split; auto. cbn [dyn stat] in C. now rewrite D in C.
Qed.

Lemma set_used_ok w o ob : Inv w -> objs w o = Some ob ->
  forall u, exists w' ob', set_used w o u = Some w' /\ Inv w' /\ Frame (fun x => x = o) w w' /\
    objs w' o = Some ob' /\ nst ob' = nst ob /\ used ob' = u /\ cap ob' = cap ob /\ is_dyn ob' = is_dyn ob /\
    dyn ob' = dyn ob /\ ptr ob' = ptr ob /\ content w' ob' = content w ob.
Proof.
  intros I H u. destruct (i_wf w I o ob H) as (A & B & D).
  assert (L : exists w', set_used w o u = Some w' /\
    Loc w o (Obj (nst ob) (stat ob) (dyn ob) (ptr ob) (cap ob) u) (content w ob) w').
  { unfold set_used, upd_obj, with_obj. rewrite H. eexists. split; [ reflexivity |]. repeat split; cbn; auto.
    - intro b. rewrite H. cbn. destruct D as [(P & D & E)|(b' & l & P & D & L & E)]; rewrite D; auto.
      unfold content. rewrite P. cbn [deref]. rewrite L. eqbs; auto.
    - intros b E. left. exists ob. auto. }
  destruct L as (w' & E1 & L). destruct (content_ok w o ob I H) as (_ & Lc).
  destruct (Loc_inv _ _ _ _ _ I L) as (I' & F & O & C); cbn; auto.
  { destruct D as [D|(b' & l & P & D & L' & E)]; [ now left | right; exists b'; auto ]. }
  fin E1 I' F O. repeat split; auto. cbn in C. rewrite C.
  destruct D as [(P & D & E)|(b' & l & P & D & L' & E)]; rewrite D; auto.
  unfold content. rewrite P. cbn [deref]. now rewrite H.
Qed.

Lemma is_dyn_spec w o ob : Inv w -> objs w o = Some ob ->
  (is_dyn ob = true /\ exists b, ptr ob = PHeap b /\ dyn ob = Some b /\ heap w b = Some (content w ob)) \/
  (is_dyn ob = false /\ ptr ob = PStatic o /\ dyn ob = None /\ cap ob = nst ob /\ content w ob = stat ob).
Proof.
  intros I H. unfold is_dyn, content. destruct (i_wf w I o ob H) as (A & B & [(P & D & E)|(b & l & P & D & L & E)]).
  - right. rewrite P, D. cbn [deref]. rewrite H. auto.
  - left. rewrite P, D. cbn [deref]. split; [ apply Nat.eqb_refl |]. exists b. rewrite L. auto.
Qed.

Lemma skipn_repeat {T} (x : T) k n : skipn k (repeat x n) = repeat x (n - k).
Proof. revert n. induction k; intros [|n]; cbn; auto. Qed.

Lemma read_n_content w o ob n : Inv w -> objs w o = Some ob -> n <= cap ob ->
  read_n w (ptr ob) n = Some (firstn n (content w ob)).
Proof.
  intros I H Hn. destruct (content_ok w o ob I H) as [D L]. unfold read_n. rewrite D.
  now rewrite (proj2 (Nat.leb_le n _)) by lia.
Qed.

Lemma grow_ok w o ob n : Inv w -> objs w o = Some ob -> used ob <= cap ob -> used ob <= n ->
  exists w' ob', grow w o n = Some w' /\ Inv w' /\ Frame (fun x => x = o) w w' /\
    objs w' o = Some ob' /\ nst ob' = nst ob /\ used ob' = used ob /\ cap ob' = n /\ is_dyn ob' = true /\
    content w' ob' = firstn (used ob) (content w ob) ++ repeat None (n - used ob).
Proof.
  intros I H U1 U2. destruct (i_wf w I o ob H) as (A & B & _). destruct (content_ok w o ob I H) as [Dr Lc].
  set (c := firstn (used ob) (content w ob)).
  assert (Lk : length c = used ob) by (unfold c; rewrite firstn_length; lia).
  assert (L : exists w', grow w o n = Some w' /\
    Loc w o (Obj (nst ob) (stat ob) (Some (next w)) (PHeap (next w)) n (used ob)) (c ++ repeat None (n - used ob)) w').
  { unfold grow, alloc. cbn [bind with_obj]. unfold with_obj. rewrite H. cbn [fst snd].
    set (w1 := World (objs w) (fupd (heap w) (next w) (Some (repeat None n))) (S (next w))).
    assert (R : read_n w1 (ptr ob) (used ob) = Some c).
    { unfold read_n. assert (E : deref w1 (ptr ob) = Some (content w ob)).
      { rewrite <- Dr. destruct (ptr ob) as [x|b] eqn:P; cbn; auto.
        rewrite fupd_ne; auto. cbn in Dr. assert (b < next w); [ apply (i_next w I); congruence | lia ]. }
      rewrite E. now rewrite (proj2 (Nat.leb_le _ _)) by lia. }
    unfold copy_n. rewrite R. unfold write_n. cbn [deref]. unfold w1 at 1. cbn [heap]. rewrite fupd_eq.
    rewrite repeat_length, Lk, (proj2 (Nat.leb_le _ _) U2), skipn_repeat. cbn [bind store].
    unfold assign_dyn, with_obj. cbn [objs set_heap w1]. rewrite H. unfold free.
    destruct (dyn ob) as [d|] eqn:D.
    - destruct (owns_live w o d I) as [l L]; [ now exists ob |].
      pose proof (owns_lt w o d I ltac:(now exists ob)) as Lt. cbn.
      rewrite !fupd_ne by lia. rewrite L. cbn. unfold upd_obj, with_obj. cbn. rewrite fupd_eq. cbn.
      eexists. split; [ reflexivity |]. repeat split; cbn.
      + intro x. unfold fupd. eqbs; auto.
      + intro b. rewrite H. cbn. rewrite D. unfold fupd. eqbs; auto.
      + lia.
      + intros b E. right. split; [ congruence | lia ].
    - cbn. unfold upd_obj, with_obj. cbn. rewrite fupd_eq. cbn. eexists. split; [ reflexivity |]. repeat split; cbn.
      + intro x. unfold fupd. eqbs; auto.
      + intro b. rewrite H. cbn. rewrite D. unfold fupd. eqbs; auto.
      + lia.
      + intros b E. right. split; [ congruence | lia ]. }
  destruct L as (w' & E & L). destruct (Loc_inv _ _ _ _ _ I L) as (I' & F & O & C); cbn; auto.
  { right. eexists. repeat split. rewrite app_length, repeat_length. lia. }
  fin E I' F O. repeat split; auto. cbn. apply Nat.eqb_refl.
Qed.

Lemma copy_elems_ok w o src ob s : Inv w -> objs w o = Some ob -> objs w src = Some s -> o <> src ->
  used s <= cap s -> used s <= cap ob ->
  exists w' ob', copy_elems w o src = Some w' /\ Inv w' /\ Frame (fun x => x = o) w w' /\
    objs w' o = Some ob' /\ nst ob' = nst ob /\ used ob' = used s /\ cap ob' = cap ob /\ is_dyn ob' = is_dyn ob /\
    content w' ob' = firstn (used s) (content w s) ++ skipn (used s) (content w ob).
Proof.
  intros I Ho Hs Hne U1 U2. unfold copy_elems, with_obj. rewrite Hs.
  destruct (set_used_ok w o ob I Ho (used s)) as (w1 & ob1 & E1 & I1 & F1 & O1 & N1 & S1 & C1 & Y1 & D1 & P1 & K1).
  rewrite E1. cbn [bind]. rewrite O1. unfold copy_n.
  destruct (F1 src) as [F1a F1b]; [ congruence |].
  rewrite (read_n_content w1 src s) by (auto; congruence). rewrite (F1b s Hs).
  unfold write_n. destruct (content_ok w1 o ob1 I1 O1) as [Dr Lc]. rewrite Dr.
  destruct (content_ok w src s I Hs) as [_ Ls].
  rewrite firstn_length, Ls, Lc. rewrite (proj2 (Nat.leb_le _ _)) by lia.
  replace (Nat.min (used s) (cap s)) with (used s) by lia.
  destruct (store_ok w1 o ob1 (firstn (used s) (content w s) ++ skipn (used s) (content w1 ob1)) I1 O1)
    as (w2 & ob2 & E2 & I2 & F2 & O2 & N2 & S2 & C2 & Y2 & D2 & P2 & K2).
  { rewrite app_length, firstn_length, skipn_length. lia. }
  rewrite E2. pose proof (Frame_trans _ _ _ _ F1 F2) as F.
  fin (eq_refl (Some w2)) I2 F O2. repeat split; try congruence.
Qed.

Lemma raw_ok w o ns : Inv w -> objs w o = None -> 1 <= ns ->
  exists ob', Inv (raw w o ns) /\ Frame (fun x => x = o) w (raw w o ns) /\ objs (raw w o ns) o = Some ob' /\
    nst ob' = ns /\ used ob' = 0 /\ cap ob' = ns /\ is_dyn ob' = false.
Proof.
  intros I H Hn.
  assert (L : Loc w o (Obj ns (repeat None ns) None (PStatic o) ns 0) [] (raw w o ns)).
  { repeat split; cbn.
    - intro b. rewrite H. reflexivity.
    - auto.
    - discriminate. }
  destruct (Loc_inv _ _ _ _ _ I L) as (I' & F & O & C); cbn; auto.
  { apply repeat_length. }
  eexists. split; [ exact I' |]. split; [ exact F |]. split; [ exact O |]. cbn. auto.
Qed.

Lemma take_dynamic_ok w o src ob s : Inv w -> objs w o = Some ob -> objs w src = Some s -> o <> src ->
  is_dyn s = true -> is_dyn ob = false ->
  exists w' ob' s', take_dynamic w o src = Some w' /\ Inv w' /\ Frame (fun x => x = o \/ x = src) w w' /\
    objs w' o = Some ob' /\ objs w' src = Some s' /\ nst ob' = nst ob /\ nst s' = nst s /\
    used ob' = used s /\ cap ob' = cap s /\ used s' = 0 /\ cap s' = nst s' /\ content w' ob' = content w s.
Proof.
  intros I Ho Hs Hne Ds Do.
  destruct (is_dyn_spec w src s I Hs) as [(_ & b & Ps & Db & Hb)|(X & _)]; [| congruence ].
  destruct (is_dyn_spec w o ob I Ho) as [(X & _)|(_ & Po & Dob & Co & Ko)]; [ congruence |].
  unfold take_dynamic, with_obj. rewrite Hs, Ho, Db.
  set (ob' := Obj (nst ob) (stat ob) (Some b) (PHeap b) (cap s) (used s)).
  set (s' := Obj (nst s) (stat s) None (PStatic src) (nst s) 0).
  set (w' := set_obj _ src (Some s')).
  destruct (i_wf w I o ob Ho) as (A1 & B1 & _). destruct (i_wf w I src s Hs) as (A2 & B2 & _).
  destruct (content_ok w src s I Hs) as [_ Lc].
  assert (Eo : objs w' o = Some ob') by (cbn; rewrite fupd_ne by auto; apply fupd_eq).
  assert (Es : objs w' src = Some s') by (cbn; apply fupd_eq).
  assert (Ex : forall x, ~ (x = o \/ x = src) -> objs w' x = objs w x) by (intros x Hx; cbn; rewrite !fupd_ne by lia; auto).
  assert (Ob : owns w src b) by (now exists s).
  assert (I' : Inv w').
  { apply (Inv_frame w w' (fun x => x = o \/ x = src)); auto.
    - intro x. lia.
    - intros b' Hb'. left. now apply (i_next w I).
    - intros x q [-> | ->] Hq.
      + assert (q = ob') by congruence. subst q. repeat split; auto. right. exists b, (content w s). auto.
      + assert (q = s') by congruence. subst q. repeat split; auto.
    - intros x b' [-> | ->] (q & Hq & Hd).
      + assert (q = ob') by congruence. subst q. cbn in Hd. left. exists src. split; auto. congruence.
      + assert (q = s') by congruence. subst q. discriminate.
    - intros x y b' [-> | ->] [-> | ->] (q & Hq & Hd) (r & Hr & Hd'); auto; exfalso.
      + assert (r = s') by congruence. subst r. discriminate.
      + assert (q = s') by congruence. subst q. discriminate.
    - intros b' Hb' [(y & [-> | ->] & (q & Hq & Hd))| ->].
      + congruence.
      + exists o. split; auto. exists ob'. split; auto. cbn. congruence.
      + exfalso. pose proof (i_next w I _ Hb'). lia. }
  assert (F : Frame (fun x => x = o \/ x = src) w w').
  { intros x Hx. rewrite (Ex x Hx). split; auto. intros q Hq. unfold content.
    destruct (i_wf w I x q Hq) as (_ & _ & [(P & _)|(b' & l & P & _)]); rewrite P; cbn [deref]; auto.
    now rewrite (Ex x Hx). }
  exists w', ob', s'. split; [ reflexivity | split; [ exact I' | split; [ exact F |] ] ]. repeat split; auto.
  change (content w' ob') with (match heap w b with Some l => l | None => [] end). now rewrite Hb.
Qed.

Lemma destroy_ok w o ob : Inv w -> objs w o = Some ob ->
  exists w', destroy w o = Some w' /\ Inv w' /\ Frame (fun x => x = o) w w' /\ objs w' o = None.
Proof.
  intros I H. unfold destroy, with_obj. rewrite H.
  assert (L : exists w', free (set_obj w o None) (dyn ob) = Some w' /\ (forall x, objs w' x = fupd (objs w) o None x) /\
     (forall b, heap w' b = if owned (Some ob) b then None else heap w b) /\ next w' = next w).
  { unfold free. destruct (dyn ob) as [d|] eqn:D.
    - destruct (owns_live w o d I) as [l L]; [ now exists ob |]. cbn. rewrite L. eexists. split; [ reflexivity |].
      cbn. rewrite D. repeat split; auto.
    - eexists. split; [ reflexivity |]. cbn. rewrite D. auto. }
  destruct L as (w' & E & Lo & Lh & Ln). exists w'. split; auto.
  assert (Eo : objs w' o = None) by (rewrite Lo; apply fupd_eq).
  assert (Ex : forall x, x <> o -> objs w' x = objs w x) by (intros; rewrite Lo; now apply fupd_ne).
  assert (Hh : forall b, (forall x, x = o -> ~ owns w x b) -> heap w' b = heap w b).
  { intros b Hb. rewrite Lh. destruct (owned (Some ob) b) eqn:X; auto. rewrite <- H in X. apply owned_spec in X.
    now apply Hb in X. }
  split; [| split; [| exact Eo ] ].
  - apply (Inv_frame w w' (fun x => x = o)); auto.
    + intro; lia.
    + lia.
    + intros b Hb. left. rewrite Lh in Hb. destruct (owned (Some ob) b); [ congruence | now apply (i_next w I) ].
    + intros x q ->. congruence.
    + intros x b -> (q & Hq & _). congruence.
    + intros x y b -> ->. auto.
    + intros b Hb [(y & -> & Hy)| ->]; exfalso.
      * rewrite Lh in Hb. apply owned_spec in Hy. rewrite H in Hy. rewrite Hy in Hb. congruence.
      * rewrite Lh in Hb. destruct (owned (Some ob) (next w)); [ congruence |]. pose proof (i_next w I _ Hb). lia.
  - intros x Hx. rewrite (Ex x Hx). split; auto. intros q Hq. unfold content.
    destruct (i_wf w I x q Hq) as (_ & _ & [(P & _)|(b' & l & P & D & _)]); rewrite P; cbn [deref].
    + now rewrite (Ex x Hx).
    + rewrite Hh; auto. intros y -> Oy. apply Hx. eapply (i_disj w I x o b'); auto. now exists q.
Qed.

(* ------------------------------------------------ operations *)
Definition Good (w : world) : Prop := Inv w /\ Fits w.

Lemma Fits_frame (T : nat -> Prop) w w' : (forall x, T x \/ ~ T x) -> Fits w -> Frame T w w' ->
  (forall x ob, T x -> objs w' x = Some ob -> used ob <= cap ob /\ 1 <= cap ob) -> Fits w'.
Proof.
  intros dec Fi F H x ob Hx. destruct (dec x) as [Tx|Tx]; [ now apply (H x) |].
  destruct (F x Tx) as [E _]. apply (Fi x). congruence.
Qed.
Lemma Good_one o w w' ob' : Good w -> Inv w' -> Frame (fun x => x = o) w w' -> objs w' o = Some ob' -> used ob' <= cap ob' -> 1 <= cap ob' ->
  Good w' /\ same_but (fun x => x = o) (view w) (view w') /\ view w' o = Some (firstn (used ob') (content w' ob')).
Proof.
  intros [I Fi] I' F O U U1. split; [ split; [ exact I' |] | split ].
  - apply (Fits_frame (fun x => x = o) w w'); auto; [ intro; lia |]. intros x q -> Hq. assert (q = ob') by congruence. now subst.
  - now apply Frame_views.
  - now apply view_content.
Qed.

Lemma live_view w o : Good w -> (objs w o <> None <-> view w o <> None).
Proof.
  intros [I _]. split; intro H.
  - destruct (objs w o) as [ob|] eqn:E; [| congruence ]. rewrite (view_content w o ob I E). discriminate.
  - intro E. apply H. unfold view. now rewrite E.
Qed.
Lemma view_some w o l : Good w -> view w o = Some l ->
  exists ob, objs w o = Some ob /\ l = firstn (used ob) (content w ob) /\ length l = used ob /\ length (content w ob) = cap ob.
Proof.
  intros [I Fi] H. destruct (objs w o) as [ob|] eqn:E; [| unfold view in H; rewrite E in H; discriminate ].
  exists ob. rewrite (view_content w o ob I E) in H. injection H as <-. destruct (content_ok w o ob I E) as [_ L].
  pose proof (Fi o ob E). repeat split; auto. rewrite firstn_length. lia.
Qed.
Lemma alive_view w o : Good w -> alive w o = true <-> view w o <> None.
Proof. intro G. rewrite <- (live_view w o G). unfold alive. destruct (objs w o); split; congruence. Qed.
Lemma dead_view w o : Good w -> alive w o = false <-> view w o = None.
Proof.
  intro G. pose proof (alive_view w o G) as A. destruct (alive w o), (view w o) as [l|]; split; try congruence; intro; exfalso.
  - now apply A.
  - assert (false = true) by (apply A; discriminate). discriminate.
Qed.
Lemma same_refl {T} P (V : views T) : same_but P V V. Proof. intros x _. reflexivity. Qed.

Lemma firstn_firstn_app {T} (n : nat) (l r : list T) : n <= length l -> firstn n (firstn n l ++ r) = firstn n l.
Proof.
  intro H. rewrite firstn_app, firstn_firstn, Nat.min_id, firstn_length.
  replace (n - Nat.min n (length l)) with 0 by lia. cbn. apply app_nil_r.
Qed.

Lemma ctor_good w o ns n : Good w -> objs w o = None -> 1 <= ns ->
  exists w', ctor w o ns n = Some w' /\ Good w' /\ sp_construct o n (view w) (view w').
Proof.
  intros G H Hn. destruct (raw_ok w o ns (proj1 G) H Hn) as (ob & I0 & F0 & O0 & N0 & U0 & C0 & Y0).
  unfold ctor. destruct (Nat.leb_spec n ns) as [Le|Gt].
  - unfold use_static, upd_obj, with_obj. rewrite O0. cbn [bind].
    set (w1 := set_obj (raw w o ns) o _).
    assert (X : exists ob1, Inv w1 /\ Frame (fun x => x = o) w w1 /\ objs w1 o = Some ob1 /\ cap ob1 = ns).
    { assert (L : Loc w o (Obj ns (repeat None ns) None (PStatic o) ns 0) [] w1).
      { cbn in O0. rewrite fupd_eq in O0. injection O0 as <-. repeat split; cbn.
        - intro x. unfold fupd. eqbs; auto.
        - intro b. now rewrite H.
        - auto.
        - discriminate. }
      destruct (Loc_inv _ _ _ _ _ (proj1 G) L) as (I' & F & O & C); cbn; auto; [ apply repeat_length |].
      eexists. split; [ exact I' |]. split; [ exact F |]. split; [ exact O |]. reflexivity. }
    destruct X as (ob1 & I1 & F1 & O1 & C1).
    destruct (set_used_ok w1 o ob1 I1 O1 n) as (w2 & ob2 & E2 & I2 & F2 & O2 & N2 & S2 & C2 & _ & _ & _ & K2).
    exists w2. split; auto. pose proof (Frame_trans _ _ _ _ F1 F2) as F.
    destruct (Good_one o w w2 ob2 G I2 F O2) as (G2 & SB & V); [ lia | lia |].
    split; auto. split; auto. eexists. split; [ exact V |]. destruct (content_ok w2 o ob2 I2 O2) as [_ L].
    rewrite firstn_length. lia.
  - destruct (use_dynamic_ok (raw w o ns) o ob n I0 O0) as (w1 & ob1 & E1 & I1 & F1 & O1 & N1 & S1 & C1 & _ & K1).
    rewrite E1. cbn [bind].
    destruct (set_used_ok w1 o ob1 I1 O1 n) as (w2 & ob2 & E2 & I2 & F2 & O2 & N2 & S2 & C2 & _ & _ & _ & K2).
    exists w2. split; auto. pose proof (Frame_trans _ _ _ _ F0 (Frame_trans _ _ _ _ F1 F2)) as F.
    destruct (Good_one o w w2 ob2 G I2 F O2) as (G2 & SB & V); [ lia | lia |].
    split; auto. split; auto. eexists. split; [ exact V |]. destruct (content_ok w2 o ob2 I2 O2) as [_ L].
    rewrite firstn_length. lia.
Qed.

Lemma use_static_ok w o ob : Inv w -> objs w o = Some ob -> is_dyn ob = false ->
  exists w', use_static w o = Some w' /\ Inv w' /\ Frame (fun x => x = o) w w' /\ objs w' o = Some ob.
Proof.
  intros I H Y. destruct (is_dyn_spec w o ob I H) as [(X & _)|(_ & P & D & C & K)]; [ congruence |].
  unfold use_static, upd_obj, with_obj. rewrite H. eexists. split; [ reflexivity |].
  assert (E : fields ob (dyn ob) (PStatic o) (nst ob) (used ob) = ob) by (clear - P D C; destruct ob; cbn in *; now subst).
  rewrite E. destruct (i_wf w I o ob H) as (A & B & _).
  assert (L : Loc w o ob [] (set_obj w o (Some ob))).
  { repeat split; cbn; auto.
    - intro b. rewrite H. cbn. now rewrite D.
    - rewrite D. discriminate. }
  destruct (Loc_inv _ _ _ _ _ I L A B (or_introl (conj P (conj D C)))) as (I' & F & O & _). auto.
Qed.

(** the copying tail: destination has room, source untouched *)
Lemma copy_tail w0 w o src ob s : Good w0 -> Inv w -> Frame (fun x => x = o) w0 w -> objs w0 src = Some s -> o <> src ->
  objs w o = Some ob -> used s <= cap ob -> 1 <= cap ob ->
  exists w', copy_elems w o src = Some w' /\ Good w' /\ sp_copy o src (view w0) (view w').
Proof.
  intros G I F Hs Hne Ho U Uo. destruct (F src) as [Fa Fb]; [ congruence |].
  destruct (proj2 G src s Hs) as [Us Us1].
  assert (Hs' : objs w src = Some s) by congruence.
  destruct (copy_elems_ok w o src ob s I Ho Hs' Hne Us U) as (w' & ob' & E & I' & F' & O' & N' & U' & C' & Y' & K').
  exists w'. split; auto. pose proof (Frame_trans _ _ _ _ F F') as FF.
  destruct (Good_one o w0 w' ob' G I' FF O') as (G' & SB & V); [ lia | lia |].
  split; auto. split; auto. rewrite V, (view_content w0 src s (proj1 G) Hs). f_equal.
  rewrite U', K', (Fb s Hs). apply firstn_firstn_app.
  destruct (content_ok w0 src s (proj1 G) Hs) as [_ L]. lia.
Qed.

Lemma choose_ctor_ok w o ns ob n : Inv w -> objs w o = Some ob -> is_dyn ob = false -> nst ob = ns ->
  exists w' ob', (if n <=? ns then use_static w o else use_dynamic w o n) = Some w' /\ Inv w' /\ Frame (fun x => x = o) w w' /\
    objs w' o = Some ob' /\ n <= cap ob' /\ 1 <= cap ob'.
Proof.
  intros I H Y N. destruct (i_wf w I o ob H) as (A & B & _). destruct (Nat.leb_spec n ns).
  - destruct (use_static_ok w o ob I H Y) as (w' & E & I' & F & O).
    destruct (is_dyn_spec w o ob I H) as [(X & _)|(_ & _ & _ & C & _)]; [ congruence |].
    exists w', ob. split; auto. split; auto. split; auto. split; auto. lia.
  - destruct (use_dynamic_ok w o ob n I H) as (w1 & ob1 & E1 & I1 & F1 & O1 & N1 & S1 & C1 & _ & K1).
    exists w1, ob1. split; auto. split; auto. split; auto. split; auto. lia.
Qed.

Lemma copy_ctor_good w o ns src s : Good w -> objs w o = None -> 1 <= ns -> objs w src = Some s ->
  exists w', copy_ctor w o ns src = Some w' /\ Good w' /\ sp_copy o src (view w) (view w').
Proof.
  intros G H Hn Hs. assert (Hne : o <> src) by congruence.
  destruct (raw_ok w o ns (proj1 G) H Hn) as (ob & I0 & F0 & O0 & N0 & U0 & C0 & Y0).
  unfold copy_ctor, with_obj. destruct (F0 src) as [Fa _]; [ congruence |]. rewrite Fa, Hs.
  destruct (choose_ctor_ok _ o ns ob (used s) I0 O0 Y0 N0) as (w1 & ob1 & E1 & I1 & F1 & O1 & C1 & C1b).
  rewrite E1. cbn [bind]. apply (copy_tail w w1 o src ob1 s); auto. eapply Frame_trans; eauto.
Qed.

Lemma copy_is_move {V V' : views cell} o src : o <> src -> sp_copy o src V V' -> sp_move o src V V'.
Proof.
  intros Hne [S C]. split; [| split; auto ].
  - intros x Hx. apply S. tauto.
Qed.

Lemma take_tail w0 w o src ob s : Good w0 -> Inv w -> Frame (fun x => x = o) w0 w -> objs w0 src = Some s -> o <> src ->
  objs w o = Some ob -> is_dyn s = true -> is_dyn ob = false ->
  exists w', take_dynamic w o src = Some w' /\ Good w' /\ sp_move o src (view w0) (view w').
Proof.
  intros G I F Hs Hne Ho Y1 Y2. destruct (F src) as [Fa Fb]; [ congruence |].
  destruct (proj2 G src s Hs) as [Us Us1]. assert (Hs' : objs w src = Some s) by congruence.
  destruct (take_dynamic_ok w o src ob s I Ho Hs' Hne Y1 Y2) as (w' & ob' & s' & E & I' & F' & O' & S' & N1 & N2 & U1 & C1 & U2 & C2 & K).
  exists w'. split; auto.
  assert (FF : Frame (fun x => x = o \/ x = src) w0 w').
  { eapply Frame_trans; [| exact F' ]. eapply Frame_weaken; [| exact F ]. intros x ->. now left. }
  assert (G' : Good w').
  { split; auto. apply (Fits_frame (fun x => x = o \/ x = src) w0 w'); auto; [ intro; lia | apply G |].
    intros x q [-> | ->] Hq.
    - assert (q = ob') by congruence. subst. lia.
    - assert (q = s') by congruence. subst. destruct (i_wf w' I' src s' S') as (A & _). lia. }
  split; auto. split; [ apply Frame_views; auto; apply G |]. split.
  - rewrite (view_content w' o ob' I' O'), (view_content w0 src s (proj1 G) Hs). now rewrite U1, K, (Fb s Hs).
  - right. rewrite (view_content w' src s' I' S'), U2. reflexivity.
Qed.

Lemma move_ctor_good w o ns src s : Good w -> objs w o = None -> 1 <= ns -> objs w src = Some s ->
  exists w', move_ctor w o ns src = Some w' /\ Good w' /\ sp_move o src (view w) (view w').
Proof.
  intros G H Hn Hs. assert (Hne : o <> src) by congruence.
  destruct (raw_ok w o ns (proj1 G) H Hn) as (ob & I0 & F0 & O0 & N0 & U0 & C0 & Y0).
  unfold move_ctor, with_obj. destruct (F0 src) as [Fa _]; [ congruence |]. rewrite Fa, Hs.
  destruct (is_dyn s) eqn:Y.
  - now apply (take_tail w _ o src ob s).
  - destruct (choose_ctor_ok _ o ns ob (used s) I0 O0 Y0 N0) as (w1 & ob1 & E1 & I1 & F1 & O1 & C1 & C1b).
    rewrite E1. cbn [bind]. destruct (copy_tail w w1 o src ob1 s) as (w' & E & G' & S); auto.
    { eapply Frame_trans; eauto. }
    exists w'. split; auto. split; auto. now apply copy_is_move.
Qed.

Lemma assign_choose_ok w o ob n : Inv w -> objs w o = Some ob ->
  exists w' ob', assign_choose w o n = Some w' /\ Inv w' /\ Frame (fun x => x = o) w w' /\ objs w' o = Some ob' /\ n <= cap ob' /\ 1 <= cap ob'.
Proof.
  intros I H. destruct (i_wf w I o ob H) as (A & B & _). unfold assign_choose, with_obj. rewrite H. destruct (Nat.leb_spec n (nst ob)).
  - destruct (to_static w o ob I H) as (w' & ob' & E & I' & F & O & N & U & C & Y & K).
    fin E I' F O. lia.
  - destruct (is_dyn ob) eqn:Y; cbn [negb orb].
    + destruct (Nat.ltb_spec (cap ob) n).
      * destruct (use_dynamic_ok w o ob n I H) as (w1 & ob1 & E1 & I1 & F1 & O1 & N1 & S1 & C1 & _ & K1).
        fin E1 I1 F1 O1. lia.
      * exists w, ob. split; auto. split; auto. split; [ apply Frame_refl |]. split; auto. lia.
    + destruct (use_dynamic_ok w o ob n I H) as (w1 & ob1 & E1 & I1 & F1 & O1 & N1 & S1 & C1 & _ & K1).
      fin E1 I1 F1 O1. lia.
Qed.

Lemma copy_assign_good w o src ob s : Good w -> objs w o = Some ob -> objs w src = Some s -> o <> src ->
  exists w', copy_assign w o src = Some w' /\ Good w' /\ sp_copy o src (view w) (view w').
Proof.
  intros G Ho Hs Hne. unfold copy_assign, with_obj. rewrite Hs.
  destruct (assign_choose_ok w o ob (used s) (proj1 G) Ho) as (w1 & ob1 & E1 & I1 & F1 & O1 & C1 & C1b).
  rewrite E1. cbn [bind]. now apply (copy_tail w w1 o src ob1 s).
Qed.

(** pointwise equal worlds *)
Definition weq (w w' : world) : Prop :=
  (forall x, objs w' x = objs w x) /\ (forall b, heap w' b = heap w b) /\ next w' = next w.
Lemma weq_good w w' : weq w w' -> Good w -> Good w' /\ forall x, view w' x = view w x.
Proof.
  intros (A & B & C) [I Fi]. assert (Ow : forall o b, owns w' o b <-> owns w o b) by (intros; unfold owns; now rewrite A).
  split; [ split; [ constructor |] |].
  - intros o ob H. rewrite A in H. destruct (i_wf w I o ob H) as (X & Y & Z). repeat split; auto.
    destruct Z as [Z|(b & l & P & D & L & E)]; [ now left | right ]. exists b, l. rewrite B. auto.
  - intros o o' b H1 H2. rewrite Ow in *. eapply i_disj; eauto.
  - intros b H. rewrite B in H. destruct (i_noleak w I b H) as [o Ho]. exists o. now rewrite Ow.
  - intros b H. rewrite B in H. rewrite C. now apply i_next.
  - intros o ob H. apply (Fi o). now rewrite <- A.
  - intro x. unfold view. rewrite A. destruct (objs w x) as [ob|]; auto. destruct (ptr ob); cbn [deref]; [ now rewrite A | now rewrite B ].
Qed.

Lemma move_assign_good w o src ob s : Good w -> objs w o = Some ob -> objs w src = Some s -> o <> src ->
  exists w', move_assign w o src = Some w' /\ Good w' /\ sp_move o src (view w) (view w').
Proof.
  intros G Ho Hs Hne. unfold move_assign. unfold with_obj at 1. rewrite Hs. destruct (is_dyn s) eqn:Y.
  - destruct (to_static w o ob (proj1 G) Ho) as (w1 & ob1 & E1 & I1 & F1 & O1 & N1 & U1 & C1 & Y1 & K1).
    destruct (take_tail w w1 o src ob1 s) as (w' & E' & G' & S'); auto.
    destruct (assign_dyn w o None) as [w2|] eqn:E2; [| discriminate ]. cbn [bind] in E1 |- *.
    unfold use_static, upd_obj, with_obj in E1.
    destruct (objs w2 o) as [ob2|] eqn:O2; [| discriminate ]. injection E1 as <-.
    cbn in O1. rewrite fupd_eq in O1. injection O1 as <-.
    unfold take_dynamic, with_obj in E' |- *. cbn [objs set_obj] in E'. rewrite fupd_eq, fupd_ne in E' by congruence.
    destruct (objs w2 src) as [s2|] eqn:S2; [| discriminate ]. rewrite O2.
    assert (s2 = s).
    { destruct (F1 src) as [Fa _]; [ congruence |]. cbn in Fa. rewrite fupd_ne in Fa by congruence. congruence. }
    subst s2.
    destruct (is_dyn_spec w src s (proj1 G) Hs) as [(_ & b & Ps & Db & Hb)|(X & _)]; [| congruence ].
    rewrite Db in *. eexists. split; [ reflexivity |]. injection E' as <-.
    match type of G' with Good ?a => match goal with |- Good ?b /\ _ => assert (W : weq a b) end end.
    { repeat split; cbn; auto. intro x. unfold fupd. eqbs; auto. }
    destruct (weq_good _ _ W G') as [G2 V2]. split; auto.
    destruct S' as (Sa & Sb & Sc). split; [| split ].
    + intros x Hx. rewrite V2. now apply Sa.
    + now rewrite V2.
    + now rewrite V2.
  - destruct (assign_choose_ok w o ob (used s) (proj1 G) Ho) as (w1 & ob1 & E1 & I1 & F1 & O1 & C1 & C1b).
    rewrite E1. cbn [bind]. destruct (copy_tail w w1 o src ob1 s) as (w' & E & G' & S); auto.
    exists w'. split; auto. split; auto. now apply copy_is_move.
Qed.

Lemma reserve_good w o ob n : Good w -> objs w o = Some ob ->
  exists w' ob', reserve w o n = Some w' /\ Good w' /\ Frame (fun x => x = o) w w' /\ objs w' o = Some ob' /\
    used ob' = used ob /\ nst ob' = nst ob /\ Nat.max (cap ob) n = cap ob' /\ view w' o = view w o /\
    (is_dyn ob = false \/ n <= cap ob -> deref w' (ptr ob) = deref w (ptr ob)).
Proof.
  intros G H. unfold reserve, with_obj. rewrite H. destruct (proj2 G o ob H) as [U Uc].
  destruct (Nat.leb_spec n (cap ob)).
  - exists w, ob. split; auto. split; auto. split; [ apply Frame_refl |]. repeat split; auto. lia.
  - destruct (grow_ok w o ob n (proj1 G) H U) as (w' & ob' & E & I' & F & O & N & U' & C & Y & K); [ lia |].
    destruct (Good_one o w w' ob' G I' F O) as (G' & SB & V); [ lia | lia |].
    exists w', ob'. split; auto. split; auto. split; auto. split; auto. split; auto. split; auto. split; [ lia |].
    destruct (content_ok w o ob (proj1 G) H) as [Dr L]. split.
    + rewrite V, (view_content w o ob (proj1 G) H), U', K. f_equal. apply firstn_firstn_app. lia.
    + intros [Y0|Y0]; [| lia ]. destruct (is_dyn_spec w o ob (proj1 G) H) as [(X & _)|(_ & P & D & _ & _)]; [ congruence |].
      rewrite P. cbn [deref]. rewrite H, O.
      (* the static array is untouched by the reallocation *)
      unfold grow, alloc, with_obj in E. rewrite H in E. cbn [bind] in E.
      destruct (copy_n _ _ _ _) as [wc|] eqn:Ec in E; [| discriminate ]. cbn [bind] in E.
      assert (Oc : objs wc o = Some ob).
      { unfold copy_n in Ec. destruct (read_n _ _ _); [| discriminate ]. unfold write_n in Ec. cbn in Ec. rewrite fupd_eq in Ec.
        destruct (_ <=? _); [| discriminate ]. injection Ec as <-. exact H. }
      unfold assign_dyn, with_obj in E. rewrite Oc, D in E. cbn [free bind] in E. unfold upd_obj, with_obj in E. cbn in E.
      rewrite fupd_eq in E. injection E as <-. cbn in O. rewrite fupd_eq in O. injection O as <-. reflexivity.
Qed.

Lemma nth_error_agree (l : list cell) n r : n <= length l -> agree (firstn n l) (firstn n l ++ r).
Proof. intros H i Hi _. now rewrite nth_error_app1. Qed.
Lemma agree_firstn_le {T} (l : list T) n m : agree (firstn n l) (firstn m l).
Proof.
  intros i H1 H2. rewrite firstn_length in *. revert i n m H1 H2. induction l as [|a l IH]; intros [|i] [|n] [|m] H1 H2; cbn in *; try lia; auto.
  apply IH; lia.
Qed.
Lemma agree_trans_eq {T} (l : list T) n m r : n <= length l -> agree (firstn n l) (firstn m (firstn n l ++ r)).
Proof.
  intros H i H1 H2. destruct (le_lt_dec m n).
  - rewrite firstn_app, firstn_firstn, firstn_length. replace (Nat.min m n) with m by lia.
    replace (m - Nat.min n (length l)) with 0 by lia. cbn [firstn]. rewrite app_nil_r.
    assert (i < length (firstn m l)). { rewrite firstn_length in *. rewrite app_length, firstn_length in H2. lia. }
    now apply agree_firstn_le.
  - assert (X : firstn m (firstn n l ++ r) = firstn n l ++ firstn (m - n) r).
    { rewrite firstn_app, firstn_firstn, firstn_length. f_equal; [ f_equal; lia | f_equal; lia ]. }
    rewrite X. now rewrite nth_error_app1.
Qed.

Lemma resize_good w o ob n : Good w -> objs w o = Some ob ->
  exists w', resize w o n = Some w' /\ Good w' /\ sp_resize o n (view w) (view w').
Proof.
  intros G H. destruct (i_wf w (proj1 G) o ob H) as (Ai & Bi & _). unfold resize, with_obj. rewrite H. destruct (proj2 G o ob H) as [U Uc].
  destruct (content_ok w o ob (proj1 G) H) as [_ L].
  destruct (Nat.eqb_spec n 0) as [->|Hn].
  - destruct (to_static w o ob (proj1 G) H) as (w1 & ob1 & E1 & I1 & F1 & O1 & N1 & U1 & C1 & Y1 & K1).
    rewrite E1. cbn [bind].
    destruct (set_used_ok w1 o ob1 I1 O1 0) as (w2 & ob2 & E2 & I2 & F2 & O2 & N2 & S2 & C2 & _ & _ & _ & K2).
    exists w2. split; auto. pose proof (Frame_trans _ _ _ _ F1 F2) as F.
    destruct (Good_one o w w2 ob2 G I2 F O2) as (G2 & SB & V); [ lia | lia |]. split; auto. split; auto.
    eexists. eexists. split; [ apply (view_content w o ob (proj1 G) H) |]. split; [ exact V |]. rewrite S2. split; auto.
    intros i _ Hi. cbn in Hi. lia.
  - destruct (Nat.ltb_spec (cap ob) n).
    + destruct (grow_ok w o ob n (proj1 G) H U) as (w1 & ob1 & E1 & I1 & F1 & O1 & N1 & U1 & C1 & Y1 & K1); [ lia |].
      rewrite E1. cbn [bind].
      destruct (set_used_ok w1 o ob1 I1 O1 n) as (w2 & ob2 & E2 & I2 & F2 & O2 & N2 & S2 & C2 & _ & _ & _ & K2).
      exists w2. split; auto. pose proof (Frame_trans _ _ _ _ F1 F2) as F.
      destruct (Good_one o w w2 ob2 G I2 F O2) as (G2 & SB & V); [ lia | lia |]. split; auto. split; auto.
      eexists. eexists. split; [ apply (view_content w o ob (proj1 G) H) |]. split; [ exact V |]. rewrite S2, K2, K1. split.
      * rewrite firstn_length, app_length, firstn_length, repeat_length. lia.
      * apply agree_trans_eq. lia.
    + cbn [bind].
      destruct (set_used_ok w o ob (proj1 G) H n) as (w2 & ob2 & E2 & I2 & F2 & O2 & N2 & S2 & C2 & _ & _ & _ & K2).
      exists w2. split; auto.
      destruct (Good_one o w w2 ob2 G I2 F2 O2) as (G2 & SB & V); [ lia | lia |]. split; auto. split; auto.
      eexists. eexists. split; [ apply (view_content w o ob (proj1 G) H) |]. split; [ exact V |]. rewrite S2, K2. split.
      * rewrite firstn_length. lia.
      * apply agree_firstn_le.
Qed.

Lemma clear_good w o ob : Good w -> objs w o = Some ob ->
  exists w', clear w o = Some w' /\ Good w' /\ sp_clear o (view w) (view w').
Proof.
  intros G H. destruct (i_wf w (proj1 G) o ob H) as (Ai & Bi & _). destruct (to_static w o ob (proj1 G) H) as (w1 & ob1 & E1 & I1 & F1 & O1 & N1 & U1 & C1 & Y1 & K1).
  unfold clear. destruct (assign_dyn w o None) as [w0|]; [| discriminate ]. cbn [bind] in *. rewrite E1. cbn [bind].
  destruct (set_used_ok w1 o ob1 I1 O1 0) as (w2 & ob2 & E2 & I2 & F2 & O2 & N2 & S2 & C2 & _ & _ & _ & K2).
  exists w2. split; auto. pose proof (Frame_trans _ _ _ _ F1 F2) as F.
  destruct (Good_one o w w2 ob2 G I2 F O2) as (G2 & SB & V); [ lia | lia |]. split; auto. split; auto.
  eexists. eexists. split; [ apply (view_content w o ob (proj1 G) H) |]. split; [ exact V |]. now rewrite S2.
Qed.

Lemma resize_static_good w o ob : Good w -> objs w o = Some ob ->
  exists w', resize_static w o = Some w' /\ Good w' /\ sp_resize o (nst ob) (view w) (view w').
Proof.
  intros G H. unfold resize_static. unfold with_obj at 1. rewrite H. destruct (proj2 G o ob H) as [U Uc].
  destruct (content_ok w o ob (proj1 G) H) as [_ L]. destruct (i_wf w (proj1 G) o ob H) as (A & B & _).
  destruct (is_dyn_spec w o ob (proj1 G) H) as [(Y & b & P & D & Hb)|(Y & P & D & C & K)]; rewrite Y.
  - set (u := Nat.min (used ob) (nst ob)).
    unfold copy_n. rewrite (read_n_content w o ob u (proj1 G) H) by lia. cbn [bind].
    unfold write_n. cbn [deref]. rewrite H, firstn_length. replace (Nat.min u (length (content w ob))) with u by lia.
    rewrite (proj2 (Nat.leb_le u _)) by lia. cbn [bind store]. rewrite H.
    set (st := firstn u (content w ob) ++ skipn u (stat ob)).
    assert (Ls : length st = nst ob) by (unfold st; rewrite app_length, firstn_length, skipn_length; lia).
    assert (X : exists w1, (w2 <- upd_obj (set_obj w o (Some (Obj (nst ob) st (dyn ob) (ptr ob) (cap ob) (used ob)))) o
                 (fun ob0 => fields ob0 (dyn ob0) (PStatic o) (nst ob0) u); assign_dyn w2 o None) = Some w1 /\
               Loc w o (Obj (nst ob) st None (PStatic o) (nst ob) u) [] w1).
    { unfold upd_obj, with_obj. cbn [objs set_obj]. rewrite fupd_eq. cbn [bind]. unfold assign_dyn, with_obj. cbn [objs set_obj].
      rewrite fupd_eq. cbn [dyn fields]. rewrite D. unfold free. cbn [heap set_obj]. rewrite Hb.
      eexists. split; [ reflexivity |]. repeat split; cbn.
      - intro x. unfold fupd. eqbs; auto.
      - intro b'. rewrite H. cbn. rewrite D. unfold fupd. eqbs; auto.
      - auto.
      - discriminate. }
    destruct X as (w1 & E1 & Lo). cbn [bind] in E1 |- *.
    match type of E1 with ?a = _ => match goal with |- context [bind ?b _] => change b with a end end. rewrite E1. cbn [bind].
    destruct (Loc_inv _ _ _ _ _ (proj1 G) Lo A Ls (or_introl (conj eq_refl (conj eq_refl eq_refl)))) as (I1 & F1 & O1 & K1).
    cbn [dyn stat] in K1. unfold with_obj. rewrite O1. cbn [cap].
    destruct (set_used_ok w1 o _ I1 O1 (nst ob)) as (w2 & ob2 & E2 & I2 & F2 & O2 & N2 & S2 & C2 & _ & _ & _ & K2).
    rewrite E2. exists w2. split; auto. pose proof (Frame_trans _ _ _ _ F1 F2) as F. cbn [cap] in C2.
    destruct (Good_one o w w2 ob2 G I2 F O2) as (G2 & SB & V); [ lia | lia |]. split; auto. split; auto.
    eexists. eexists. split; [ apply (view_content w o ob (proj1 G) H) |]. split; [ exact V |]. rewrite S2, K2, K1. split.
    + rewrite firstn_length. lia.
    + rewrite (firstn_all2 st) by lia. intros i H1 H2. rewrite firstn_length in H1.
      unfold st. rewrite nth_error_app1 by (rewrite firstn_length; unfold u; lia).
      apply agree_firstn_le; rewrite firstn_length; unfold u; lia.
  - cbn [bind]. unfold with_obj. rewrite H.
    destruct (set_used_ok w o ob (proj1 G) H (cap ob)) as (w2 & ob2 & E2 & I2 & F2 & O2 & N2 & S2 & C2 & _ & _ & _ & K2).
    rewrite E2. exists w2. split; auto.
    destruct (Good_one o w w2 ob2 G I2 F2 O2) as (G2 & SB & V); [ lia | lia |]. split; auto. split; auto.
    eexists. eexists. split; [ apply (view_content w o ob (proj1 G) H) |]. split; [ exact V |]. rewrite S2, K2. split.
    + rewrite firstn_length. lia.
    + apply agree_firstn_le.
Qed.

Lemma write_at_content w o ob i v : Inv w -> objs w o = Some ob -> i < cap ob ->
  exists w' ob', write_at w (ptr ob) i v = Some w' /\ Inv w' /\ Frame (fun x => x = o) w w' /\
    objs w' o = Some ob' /\ nst ob' = nst ob /\ used ob' = used ob /\ cap ob' = cap ob /\
    content w' ob' = firstn i (content w ob) ++ v :: skipn (S i) (content w ob).
Proof.
  intros I H Hi. unfold write_at. destruct (content_ok w o ob I H) as [Dr L]. rewrite Dr.
  rewrite (proj2 (Nat.ltb_lt i _)) by lia.
  destruct (store_ok w o ob (firstn i (content w ob) ++ v :: skipn (S i) (content w ob)) I H)
    as (w2 & ob2 & E2 & I2 & F2 & O2 & N2 & S2 & C2 & Y2 & D2 & P2 & K2).
  { rewrite app_length. cbn [length]. rewrite firstn_length, skipn_length. lia. }
  rewrite E2. fin (eq_refl (Some w2)) I2 F2 O2. auto.
Qed.


Lemma firstn_snoc {T} n (l : list T) v r : n <= length l -> firstn (S n) (firstn n l ++ v :: r) = firstn n l ++ [v].
Proof.
  intro H. rewrite firstn_app, firstn_firstn, firstn_length. replace (Nat.min (S n) n) with n by lia.
  replace (S n - Nat.min n (length l)) with 1 by lia. reflexivity.
Qed.

Lemma push_back_good w o ob a v : Good w -> objs w o = Some ob ->
  (forall w1, (if used ob =? cap ob then reserve w o (cap ob * 2) else Some w) = Some w1 -> read_arg w1 a = Some v) ->
  exists w', push_back w o a = Some w' /\ Good w' /\ sp_push o v (view w) (view w').
Proof.
  intros G H R. unfold push_back. unfold with_obj at 1. rewrite H. destruct (proj2 G o ob H) as [U Uc].
  assert (X : exists w1 ob1, (if used ob =? cap ob then reserve w o (cap ob * 2) else Some w) = Some w1 /\ Good w1 /\
    Frame (fun x => x = o) w w1 /\ objs w1 o = Some ob1 /\ used ob1 = used ob /\ used ob < cap ob1 /\ view w1 o = view w o).
  { destruct (Nat.eqb_spec (used ob) (cap ob)) as [E|E].
    - destruct (reserve_good w o ob (cap ob * 2) G H) as (w1 & ob1 & E1 & G1 & F1 & O1 & U1 & N1 & M1 & V1 & _).
      exists w1, ob1. repeat (split; auto). lia.
    - exists w, ob. split; auto. split; auto. split; [ apply Frame_refl |]. repeat split; auto. lia. }
  destruct X as (w1 & ob1 & E1 & G1 & F1 & O1 & U1 & C1 & V1). specialize (R w1 E1). rewrite E1. cbn [bind]. rewrite R. cbn [bind].
  unfold with_obj. rewrite O1.
  destruct (write_at_content w1 o ob1 (used ob1) v (proj1 G1) O1) as (w2 & ob2 & E2 & I2 & F2 & O2 & N2 & U2 & C2 & K2); [ lia |].
  rewrite E2. cbn [bind].
  destruct (set_used_ok w2 o ob2 I2 O2 (S (used ob1))) as (w3 & ob3 & E3 & I3 & F3 & O3 & N3 & S3 & C3 & _ & _ & _ & K3).
  exists w3. split; auto.
  pose proof (Frame_trans _ _ _ _ F1 (Frame_trans _ _ _ _ F2 F3)) as F.
  destruct (Good_one o w w3 ob3 G I3 F O3) as (G3 & SB & V); [ lia | lia |]. split; auto. split; auto.
  destruct (content_ok w1 o ob1 (proj1 G1) O1) as [_ L1].
  eexists. eexists. split; [ apply (view_content w o ob (proj1 G) H) |]. split; [ exact V |].
  rewrite S3, K3, K2. rewrite firstn_snoc by lia. f_equal.
  rewrite (view_content w1 o ob1 (proj1 G1) O1), (view_content w o ob (proj1 G) H) in V1. congruence.
Qed.

Lemma nth_error_upd {T} i (l : list T) v j : i < length l ->
  nth_error (firstn i l ++ v :: skipn (S i) l) j = if j =? i then Some v else nth_error l j.
Proof.
  revert i j. induction l as [|a l IH]; intros [|i] [|j] H; cbn in *; try lia; auto. apply IH. lia.
Qed.
Lemma nth_error_firstn {T} n (l : list T) j : nth_error (firstn n l) j = if j <? n then nth_error l j else None.
Proof.
  revert l j. induction n as [|n IH]; intros [|a l] [|j]; auto.
  - now destruct (S j <? S n).
  - cbn [firstn nth_error]. rewrite IH. reflexivity.
Qed.

Lemma put_good w o ob i v : Good w -> objs w o = Some ob -> i < used ob ->
  exists w', put w o i v = Some w' /\ Good w' /\ sp_put o i (Some v) (view w) (view w').
Proof.
  intros G H Hi. unfold put, with_obj. rewrite H. destruct (proj2 G o ob H) as [U Uc].
  destruct (write_at_content w o ob i (Some v) (proj1 G) H) as (w2 & ob2 & E2 & I2 & F2 & O2 & N2 & U2 & C2 & K2); [ lia |].
  exists w2. split; auto. destruct (content_ok w o ob (proj1 G) H) as [_ L].
  destruct (Good_one o w w2 ob2 G I2 F2 O2) as (G3 & SB & V); [ lia | lia |]. split; auto. split; auto.
  destruct (content_ok w2 o ob2 I2 O2) as [_ L2].
  eexists. eexists. split; [ apply (view_content w o ob (proj1 G) H) |]. split; [ exact V |].
  rewrite U2. split; [ rewrite !firstn_length; lia |]. rewrite K2. split.
  - rewrite nth_error_firstn, (@nth_error_upd cell) by lia. rewrite Nat.eqb_refl. now rewrite (proj2 (Nat.ltb_lt _ _) Hi).
  - intros j Hj. rewrite !nth_error_firstn, (@nth_error_upd cell) by lia. apply Nat.eqb_neq in Hj. now rewrite Hj.
Qed.

Lemma get_view w o i l : Good w -> view w o = Some l -> i < length l -> get w o i = nth_error l i.
Proof.
  intros G V Hi. destruct (view_some w o l G V) as (ob & H & -> & L & Lc). unfold get, with_obj. rewrite H.
  unfold read_at. destruct (content_ok w o ob (proj1 G) H) as [-> _]. rewrite L in Hi.
  rewrite nth_error_firstn. now rewrite (proj2 (Nat.ltb_lt _ _) Hi).
Qed.

Lemma read_elem w s sb i l : Good w -> objs w s = Some sb -> view w s = Some l -> i < length l ->
  read_at w (ptr sb) i = nth_error l i.
Proof. intros G H V Hi. rewrite <- (get_view w s i l G V Hi). unfold get, with_obj. now rewrite H. Qed.

Lemma deref_frame w w' o x ob : Inv w -> Inv w' -> Frame (fun y => y = o) w w' -> x <> o -> objs w x = Some ob ->
  deref w' (ptr ob) = deref w (ptr ob).
Proof.
  intros I I' F Hx H. destruct (F x Hx) as [A B]. rewrite H in A.
  destruct (content_ok w x ob I H) as [D1 _]. destruct (content_ok w' x ob I' A) as [D2 _]. rewrite D1, D2. now rewrite (B ob H).
Qed.

Theorem exec_good w p : Good w -> legal w p ->
  exists w', exec w p = Some w' /\ Good w' /\ contract (nst_of w) p (view w) (view w').
Proof.
  intros G Lg.
  assert (Hd : forall o, alive w o = false -> objs w o = None) by (intros o E; unfold alive in E; destruct (objs w o); congruence).
  assert (Ha : forall o, alive w o = true -> exists ob, objs w o = Some ob) by (intros o E; unfold alive in E; destruct (objs w o) as [q|]; [ now exists q | congruence ]).
  assert (Hdv := dead_view w). assert (Hav := alive_view w).
  destruct p as [o ns n|o ns s|o ns s|o s|o s|o n|o n|o|o|o v|o s i|o i v|o i|o]; cbn [exec contract legal] in *.
  - destruct (alive w o) eqn:A; cbn [negb andb]; [ exists w; split; auto; split; auto; split; [ intros [X _]; apply Hdv in X; auto; congruence | intros _; apply same_refl ] |].
    destruct (Nat.leb_spec 1 ns); [| exists w; split; auto; split; auto; split; [ lia | intros _; apply same_refl ] ].
    destruct (ctor_good w o ns n G) as (w' & E & G' & S); auto. exists w'. split; auto. split; auto. split; auto.
    intros X. exfalso. apply X. split; auto. now apply Hdv.
  - destruct (negb (alive w o) && (1 <=? ns) && alive w s && negb (ns =? nst_of w s)) eqn:C.
    + rewrite !andb_true_iff, !negb_true_iff in C. destruct C as (((A & B) & Cs) & D). apply Nat.leb_le in B. apply Nat.eqb_neq in D.
      destruct (Ha s Cs) as [sb Hs]. destruct (copy_ctor_good w o ns s sb G) as (w' & E & G' & S); auto.
      exists w'. split; auto. split; auto. split; auto. intros X. exfalso. apply X.
      split; [ now apply Hdv |]. split; auto. split; auto. now apply Hav.
    + exists w. split; auto. split; auto. split; [| intros _; apply same_refl ].
      intros (X1 & X2 & X3 & X4). exfalso. apply Hdv in X1; auto. apply Hav in X3; auto. apply Nat.leb_le in X2. apply Nat.eqb_neq in X4.
      rewrite X1, X2, X3, X4 in C. discriminate.
  - destruct (negb (alive w o) && (1 <=? ns) && alive w s) eqn:C.
    + rewrite !andb_true_iff, !negb_true_iff in C. destruct C as ((A & B) & Cs). apply Nat.leb_le in B.
      rewrite (proj2 (Nat.eqb_neq _ _) Lg).
      destruct (Ha s Cs) as [sb Hs]. destruct (move_ctor_good w o ns s sb G) as (w' & E & G' & S); auto.
      exists w'. split; auto. split; auto. split; auto. intros X. exfalso. apply X.
      split; [ now apply Hdv |]. split; auto. now apply Hav.
    + exists w. split; auto. split; auto. split; [| intros _; apply same_refl ].
      intros (X1 & X2 & X3). exfalso. apply Hdv in X1; auto. apply Hav in X3; auto. apply Nat.leb_le in X2.
      rewrite X1, X2, X3 in C. discriminate.
  - destruct (alive w o && alive w s && negb (nst_of w o =? nst_of w s)) eqn:C.
    + rewrite !andb_true_iff, !negb_true_iff in C. destruct C as ((A & B) & D). apply Nat.eqb_neq in D.
      destruct (Ha o A) as [ob Ho]. destruct (Ha s B) as [sb Hs].
      destruct (copy_assign_good w o s ob sb G) as (w' & E & G' & S); auto.
      exists w'. split; auto. split; auto. split; auto. intros X. exfalso. apply X.
      split; [ now apply Hav |]. split; auto. now apply Hav.
    + exists w. split; auto. split; auto. split; [| intros _; apply same_refl ].
      intros (X1 & X2 & X3). exfalso. apply Hav in X1; auto. apply Hav in X2; auto. apply Nat.eqb_neq in X3.
      rewrite X1, X2, X3 in C. discriminate.
  - destruct (alive w o && alive w s && negb (nst_of w o =? nst_of w s)) eqn:C.
    + rewrite !andb_true_iff, !negb_true_iff in C. destruct C as ((A & B) & D). apply Nat.eqb_neq in D.
      destruct (Ha o A) as [ob Ho]. destruct (Ha s B) as [sb Hs].
      destruct (move_assign_good w o s ob sb G) as (w' & E & G' & S); auto.
      exists w'. split; auto. split; auto. split; auto. intros X. exfalso. apply X.
      split; [ now apply Hav |]. split; auto. now apply Hav.
    + exists w. split; auto. split; auto. split; [| intros _; apply same_refl ].
      intros (X1 & X2 & X3). exfalso. apply Hav in X1; auto. apply Hav in X2; auto. apply Nat.eqb_neq in X3.
      rewrite X1, X2, X3 in C. discriminate.
  - destruct (alive w o) eqn:A; [| exists w; split; auto; split; auto; apply same_refl ].
    destruct (Ha o A) as [ob Ho]. destruct (reserve_good w o ob n G Ho) as (w1 & ob1 & E1 & G1 & F1 & O1 & U1 & N1 & M1 & V1 & _).
    exists w1. split; auto. split; auto. intros x _. destruct (Nat.eq_dec x o) as [->|Hx]; auto.
    apply (Frame_views _ w w1 (proj1 G) (proj1 G1) F1). auto.
  - destruct (alive w o) eqn:A; [| exists w; split; auto; split; auto; split; [ intro X; apply Hav in X; auto; congruence | intros _; apply same_refl ] ].
    destruct (Ha o A) as [ob Ho]. destruct (resize_good w o ob n G Ho) as (w' & E & G' & S).
    exists w'. split; auto. split; auto. split; auto. intro X. apply Hdv in X; auto. congruence.
  - destruct (alive w o) eqn:A; [| exists w; split; auto; split; auto; split; [ intro X; apply Hav in X; auto; congruence | intros _; apply same_refl ] ].
    destruct (Ha o A) as [ob Ho]. destruct (resize_static_good w o ob G Ho) as (w' & E & G' & S).
    exists w'. split; auto. split; auto. split; [ intros _; unfold nst_of; now rewrite Ho |]. intro X. apply Hdv in X; auto. congruence.
  - destruct (alive w o) eqn:A; [| exists w; split; auto; split; auto; split; [ intro X; apply Hav in X; auto; congruence | intros _; apply same_refl ] ].
    destruct (Ha o A) as [ob Ho]. destruct (clear_good w o ob G Ho) as (w' & E & G' & S).
    exists w'. split; auto. split; auto. split; auto. intro X. apply Hdv in X; auto. congruence.
  - destruct (alive w o) eqn:A; [| exists w; split; auto; split; auto; split; [ intro X; apply Hav in X; auto; congruence | intros _; apply same_refl ] ].
    destruct (Ha o A) as [ob Ho]. destruct (push_back_good w o ob (AVal v) (Some v) G Ho) as (w' & E & G' & S); [ auto |].
    exists w'. split; auto. split; auto. split; auto. intro X. apply Hdv in X; auto. congruence.
  - destruct (alive w o && alive w s) eqn:C.
    + apply andb_true_iff in C. destruct C as [A B]. destruct (Ha o A) as [ob Ho]. destruct (Ha s B) as [sb Hs].
      unfold with_obj. rewrite Hs. destruct Lg as [Li Lf]. unfold size in Li.
      rewrite (view_content w s sb (proj1 G) Hs) in Li.
      set (l := firstn (used sb) (content w sb)) in *.
      assert (Vs : view w s = Some l) by (apply (view_content w s sb (proj1 G) Hs)).
      destruct (nth_error l i) as [c|] eqn:Ec; [| apply nth_error_None in Ec; lia ].
      pose proof (read_elem w s sb i l G Hs Vs Li) as R. rewrite Ec in R.
      destruct (push_back_good w o ob (ARef (ptr sb) i) c G Ho) as (w' & E & G' & S).
      { intros w1 E1. cbn [read_arg]. rewrite <- R. unfold read_at.
        assert (D : deref w1 (ptr sb) = deref w (ptr sb)); [| now rewrite D ].
        destruct (Nat.eqb_spec (used ob) (cap ob)) as [Ef|Ef]; [| congruence ].
        destruct (reserve_good w o ob (cap ob * 2) G Ho) as (w1' & ob1 & E1' & G1 & F1 & O1 & U1 & N1 & M1 & V1 & Dd).
        assert (w1' = w1) by congruence. subst w1'.
        destruct (Nat.eq_dec s o) as [->|Hne].
        - assert (sb = ob) by congruence. subst sb. apply Dd. left.
          destruct (Lf eq_refl) as [X|X].
          + unfold full in X. rewrite Ho in X. apply Nat.eqb_neq in X. congruence.
          + unfold is_static in X. rewrite Ho in X. now apply negb_true_iff in X.
        - apply (deref_frame w w1 o s sb); auto; [ apply G | apply G1 ]. }
      exists w'. split; auto. split; auto. split.
      * intros l' c' _ X1 X2. assert (l' = l) by congruence. subst l'. assert (c' = c) by congruence. now subst.
      * intros [X|X]; apply Hdv in X; auto; congruence.
    + exists w. split; auto. split; auto. split; [| intros _; apply same_refl ].
      intros l c X1 X2 _. exfalso. apply Hav in X1; auto. assert (X3 : view w s <> None) by congruence. apply Hav in X3; auto.
      rewrite X1, X3 in C. discriminate.
  - destruct (alive w o) eqn:A; [| exists w; split; auto; split; auto; split; [ intro X; apply Hav in X; auto; congruence | intros _; apply same_refl ] ].
    destruct (Ha o A) as [ob Ho]. destruct (put_good w o ob i v G Ho) as (w' & E & G' & S).
    { unfold size in Lg. rewrite (view_content w o ob (proj1 G) Ho), firstn_length in Lg. lia. }
    exists w'. split; auto. split; auto. split; auto. intro X. apply Hdv in X; auto. congruence.
  - destruct (alive w o) eqn:A; [| exists w; split; auto; split; auto; apply same_refl ].
    destruct (Ha o A) as [ob Ho]. unfold size in Lg. destruct (view w o) as [l|] eqn:V; [| cbn in Lg; lia ].
    rewrite (get_view w o i l G V Lg). destruct (nth_error l i) eqn:Z; [| apply nth_error_None in Z; lia ].
    cbn [bind]. exists w. split; auto. split; auto. apply same_refl.
  - destruct (alive w o) eqn:A; [| exists w; split; auto; split; auto; split; [ intro X; apply Hav in X; auto; congruence | intros _; apply same_refl ] ].
    destruct (Ha o A) as [ob Ho]. destruct (destroy_ok w o ob (proj1 G) Ho) as (w' & E & I' & F & O).
    exists w'. split; auto.
    assert (G' : Good w').
    { split; auto. apply (Fits_frame (fun x => x = o) w w'); auto; [ intro; lia | apply G | intros x q -> Hq; congruence ]. }
    split; auto. split; [| intro X; apply Hdv in X; auto; congruence ].
    intros _. split; [ apply Frame_views; auto; apply G |]. unfold view. now rewrite O.
Qed.

Lemma empty_good : Good empty_world.
Proof. split; [ constructor; cbn; try discriminate; try congruence |]; unfold owns; cbn; try (intros ? ? ? (? & ? & _); discriminate). discriminate. Qed.

Lemma run_good l : forall w, Good w -> legal_run w l -> exists w', run w l = Some w' /\ Good w'.
Proof.
  induction l as [|p r IH]; intros w G L; cbn [run].
  - now exists w.
  - destruct L as [L1 L2]. destruct (exec_good w p G L1) as (w1 & E & G1 & _). rewrite E. cbn [bind]. apply IH; auto.
Qed.

Lemma reachable_good w : reachable w -> Good w.
Proof. intros (l & L & R). destruct (run_good l empty_world empty_good L) as (w' & E & G). congruence. Qed.

Lemma run_app l1 l2 w : run w (l1 ++ l2) = (w1 <- run w l1; run w1 l2).
Proof. revert w. induction l1 as [|p r IH]; intro w; cbn; auto. destruct (exec w p); cbn; auto. Qed.

(** ---- hazards *)
Lemma implicit_move_static w o ns s sb : Good w -> objs w s = Some sb -> objs w o = None -> is_static w s = true -> ns = nst sb -> 1 <= ns ->
  exists w', exec w (MoveCtor o ns s) = Some w' /\ exists ob', objs w' o = Some ob' /\ ptr ob' = PStatic s /\
    (forall v i w2, i < used sb -> exec w' (Put s i v) = Some w2 -> get w2 o i = Some (Some v)) /\
    (forall w2, exec w' (Destroy s) = Some w2 -> forall i, exec w2 (Get o i) = None) /\
    (exists w2, exec w' (Destroy s) = Some w2 /\ objs w2 o = Some ob').
Proof.
  intros G Hs Ho St -> Hn. unfold is_static in St. rewrite Hs in St. apply negb_true_iff in St.
  destruct (is_dyn_spec w s sb (proj1 G) Hs) as [(X & _)|(_ & P & D & C & K)]; [ congruence |].
  assert (Hne : o <> s) by congruence. destruct (i_wf w (proj1 G) s sb Hs) as (A & B & _). destruct (proj2 G s sb Hs) as [U _].
  cbn [exec]. unfold alive, nst_of. rewrite Ho, Hs. rewrite (proj2 (Nat.leb_le 1 _)) by lia. cbn [negb andb]. rewrite Nat.eqb_refl.
  unfold implicit_move_ctor, with_obj. rewrite Hs. eexists. split; [ reflexivity |]. exists sb. cbn [objs set_obj].
  split; [ rewrite fupd_ne by auto; apply fupd_eq |]. split; [ exact P |]. split; [| split ].
  - intros v i w2 Hi. unfold alive, put, with_obj. cbn [objs set_obj]. rewrite fupd_eq. cbn [ptr fields]. rewrite P.
    unfold write_at. cbn [deref objs set_obj]. rewrite fupd_eq. cbn [stat fields]. rewrite (proj2 (Nat.ltb_lt i _)) by lia.
    intro E. injection E as <-. unfold get, with_obj. cbn [store objs set_obj]. rewrite !fupd_eq. cbn [objs set_obj].
    rewrite !fupd_ne by auto. rewrite fupd_eq. rewrite P. unfold read_at. cbn [deref objs set_obj]. rewrite fupd_eq. cbn [stat].
    rewrite (@nth_error_upd cell) by lia. now rewrite Nat.eqb_refl.
  - intros w2 E i. unfold alive, destroy, with_obj in E. cbn [objs set_obj] in E. rewrite fupd_eq in E. cbn [dyn fields free] in E.
    injection E as <-. unfold alive, get, with_obj. cbn [objs set_obj]. rewrite !fupd_ne by auto. rewrite fupd_eq. rewrite P.
    unfold read_at. cbn [deref objs set_obj]. now rewrite fupd_eq.
  - unfold alive, destroy, with_obj. cbn [objs set_obj]. rewrite fupd_eq. cbn [dyn fields free].
    eexists. split; [ reflexivity |]. cbn [objs set_obj]. rewrite !fupd_ne by auto. apply fupd_eq.
Qed.

Lemma implicit_move_dynamic w o ns s sb : Good w -> objs w s = Some sb -> objs w o = None -> is_static w s = false -> ns = nst sb ->
  1 <= ns -> 1 <= used sb ->
  exists w' w2, exec w (MoveCtor o ns s) = Some w' /\ view w' s = view w' o /\ exec w' (Destroy o) = Some w2 /\
    forall i, exec w2 (Get s i) = None.
Proof.
  intros G Hs Ho St -> Hn Hu. unfold is_static in St. rewrite Hs in St. apply negb_false_iff in St.
  destruct (is_dyn_spec w s sb (proj1 G) Hs) as [(_ & b & P & D & Hb)|(X & _)]; [| congruence ].
  assert (Hne : o <> s) by congruence.
  cbn [exec]. unfold alive, nst_of. rewrite Ho, Hs. rewrite (proj2 (Nat.leb_le 1 _)) by lia. cbn [negb andb]. rewrite Nat.eqb_refl.
  unfold implicit_move_ctor, with_obj. rewrite Hs. eexists. eexists. split; [ reflexivity |]. split.
  - unfold view. cbn [objs set_obj]. rewrite fupd_eq, fupd_ne, fupd_eq by auto. cbn [ptr fields used]. rewrite P. reflexivity.
  - cbn [objs set_obj]. rewrite fupd_ne, fupd_eq by auto. unfold destroy, with_obj. cbn [objs set_obj].
    rewrite fupd_ne, fupd_eq by auto. rewrite D. cbn [free heap set_obj]. rewrite Hb. split; [ reflexivity |].
    intro i. unfold get, with_obj. cbn [objs set_obj set_heap]. rewrite (fupd_ne _ o None s), fupd_eq by auto. cbn [ptr fields]. rewrite P.
    unfold read_at. cbn [deref heap set_heap]. now rewrite fupd_eq.
Qed.

Lemma push_self_full_heap w o i : Good w -> alive w o = true -> is_static w o = false -> full w o = true ->
  exec w (PushElem o o i) = None.
Proof.
  intros G A St Fu. unfold alive in A. destruct (objs w o) as [ob|] eqn:H; [| discriminate ].
  unfold is_static in St. unfold full in Fu. rewrite H in St, Fu. apply negb_false_iff in St. apply Nat.eqb_eq in Fu.
  destruct (is_dyn_spec w o ob (proj1 G) H) as [(_ & b & P & D & Hb)|(X & _)]; [| congruence ].
  destruct (proj2 G o ob H) as [U Uc]. destruct (content_ok w o ob (proj1 G) H) as [Dr L].
  cbn [exec]. unfold alive. rewrite H. cbn [andb]. unfold with_obj at 1. rewrite H. unfold push_back. unfold with_obj at 1. rewrite H.
  rewrite (proj2 (Nat.eqb_eq _ _) Fu). destruct (reserve w o (cap ob * 2)) as [w1|] eqn:E; cbn [bind]; auto.
  assert (X : deref w1 (ptr ob) = None).
  { unfold reserve, with_obj in E. rewrite H in E. rewrite (proj2 (Nat.leb_gt (cap ob * 2) _)) in E by lia.
    unfold grow, alloc, with_obj in E. rewrite H in E. cbn [bind] in E.
    destruct (copy_n _ _ _ _) as [wc|] eqn:Ec in E; [| discriminate ]. cbn [bind] in E.
    unfold assign_dyn, with_obj in E. destruct (objs wc o) as [oc|] eqn:Oc; [| discriminate ].
    assert (oc = ob).
    { unfold copy_n in Ec. destruct (read_n _ _ _); [| discriminate ]. unfold write_n in Ec. cbn in Ec. rewrite fupd_eq in Ec.
      destruct (_ <=? _); [| discriminate ]. injection Ec as <-. cbn in Oc. congruence. }
    subst oc. rewrite D in E. unfold free in E. cbn [heap set_obj] in E. destruct (heap wc b); [| discriminate ]. cbn [bind] in E.
    unfold upd_obj, with_obj in E. cbn [objs set_obj set_heap] in E. rewrite fupd_eq in E. injection E as <-.
    rewrite P. cbn. apply fupd_eq. }
  cbn [read_arg]. unfold read_at. rewrite X. reflexivity.
Qed.

Lemma at_nonneg w o l i : Good w -> view w o = Some l -> (0 <= i)%Z ->
  at_ w o i = Some (if (i <? Z.of_nat (length l))%Z then nth_error l (Z.to_nat i) else None).
Proof.
  intros G V Hi. destruct (view_some w o l G V) as (ob & H & El & L & Lc). unfold at_, with_obj. rewrite H, L.
  destruct (Z.ltb_spec i (Z.of_nat (used ob))) as [Lt|Ge]; [| reflexivity ].
  rewrite (proj2 (Z.ltb_ge i 0) Hi). rewrite (read_elem w o ob (Z.to_nat i) l G H V) by lia.
  destruct (nth_error l (Z.to_nat i)) eqn:E; auto. apply nth_error_None in E. lia.
Qed.
Lemma at_negative w o i : (i < 0)%Z -> alive w o = true -> at_ w o i = None.
Proof.
  intros Hi A. unfold alive in A. destruct (objs w o) as [ob|] eqn:H; [| discriminate ]. unfold at_, with_obj. rewrite H.
  rewrite (proj2 (Z.ltb_lt i _)) by lia. now rewrite (proj2 (Z.ltb_lt i 0) Hi).
Qed.

Lemma heap_owner w b : Good w -> heap w b <> None ->
  exists o ob, objs w o = Some ob /\ dyn ob = Some b /\ ptr ob = PHeap b /\
    forall o' ob', objs w o' = Some ob' -> dyn ob' = Some b \/ ptr ob' = PHeap b -> o' = o.
Proof.
  intros [I Fi] Hb. destruct (i_noleak w I b Hb) as (o & ob & Ho & Hd). exists o, ob.
  destruct (i_wf w I o ob Ho) as (_ & _ & [(P & D & _)|(b' & l & P & D & _)]); [ congruence |].
  assert (b' = b) by congruence. subst b'. repeat split; auto.
  intros o' ob' Ho' Hx. apply (i_disj w I o' o b); [| now exists ob ]. exists ob'. split; auto.
  destruct (i_wf w I o' ob' Ho') as (_ & _ & [(P' & D' & _)|(b' & l' & P' & D' & _)]); destruct Hx; congruence.
Qed.

(** push_back's debug assertion on the capacity after growing (cxx.hpp:1360) *)
Lemma push_grow_capacity w o ob w1 ob1 : Good w -> objs w o = Some ob -> used ob = cap ob -> reserve w o (cap ob * 2) = Some w1 ->
  objs w1 o = Some ob1 -> cap ob1 = 2 * cap ob /\ (cap ob1 > used ob1 + 1 <-> cap ob <> 1).
Proof.
  intros G H F E O. destruct (reserve_good w o ob (cap ob * 2) G H) as (w1' & ob1' & E1 & G1 & F1 & O1 & U1 & N1 & M1 & _).
  assert (w1' = w1) by congruence. subst. assert (ob1' = ob1) by congruence. subst. destruct (proj2 G o ob H). lia.
Qed.
