From Coq Require Import ZArith QArith List Bool Lia Sorting.Permutation.
From Verif Require Import Lib.Grid Model.Lobster Model.SubsenseFrame Model.WordDict.
Import ListNotations.
Open Scope Z_scope.

(* a computation that ends well, in a state with a property *)
Definition ok {S} (P : S -> Prop) (o : outcome S) : Prop := match o with Done s => P s | _ => False end.
Lemma ok_done {S} (P : S -> Prop) s : P s -> ok P (Done s). Proof. exact (fun H => H). Qed.
Lemma ok_bind {S T} (P : S -> Prop) (Q : T -> Prop) (o : outcome S) (f : S -> outcome T) : ok P o -> (forall s, P s -> ok Q (f s)) -> ok Q (obind o f).
Proof. destruct o; cbn; try easy. auto. Qed.
Lemma ok_mono {S} (P Q : S -> Prop) o : ok P o -> (forall s, P s -> Q s) -> ok Q o.
Proof. destruct o; cbn; auto. Qed.
Lemma ok_ex {S} (P : S -> Prop) o : ok P o -> exists s, o = Done s /\ P s.
Proof. destruct o; cbn; try easy. eauto. Qed.
Lemma ok_each {A S} (I : S -> Prop) (f : A -> S -> outcome S) l : (forall a s, In a l -> I s -> ok I (f a s)) -> forall s, I s -> ok I (each f l s).
Proof.
  induction l as [|a l IH]; intros H s Hs; [ exact Hs |]. cbn [each]. apply (ok_bind I).
  - apply H; [ now left | exact Hs ].
  - intros s' Hs'. apply IH; [| exact Hs' ]. intros x y Hx. apply H. now right.
Qed.
(* with an invariant that depends on what was done *)
Lemma ok_each_pre {A S} (I : list A -> S -> Prop) (f : A -> S -> outcome S) l : forall done s,
  (forall d a r s, done ++ l = d ++ a :: r -> I d s -> ok (I (d ++ [a])) (f a s)) -> I done s -> ok (I (done ++ l)) (each f l s).
Proof.
  induction l as [|a l IH]; intros d s H Hs; [ rewrite app_nil_r; exact Hs |]. cbn [each]. apply (ok_bind (I (d ++ [a]))).
  - exact (H d a l s eq_refl Hs).
  - intros s' Hs'. replace (d ++ a :: l) with ((d ++ [a]) ++ l) by (rewrite <- app_assoc; reflexivity). apply IH; [| exact Hs' ].
    intros d' a' r s'' E. apply (H d' a' r s''). rewrite <- E, <- app_assoc. reflexivity.
Qed.
Lemma access_get {A} n (m : Z -> A) i : 0 <= i < n -> access (get n m i) = Done (m i).
Proof. intros H. unfold access, get, inside_buf. now rewrite (proj2 (Z.leb_le 0 i)), (proj2 (Z.ltb_lt i n)) by lia. Qed.
Lemma inside_true n i : 0 <= i < n -> inside_buf n i = true.
Proof. intros H. unfold inside_buf. now rewrite (proj2 (Z.leb_le 0 i)), (proj2 (Z.ltb_lt i n)) by lia. Qed.

Section Words.
  Context {A : Type}.
  Implicit Types m : store A.

  Definition val m (s : Z) : option A := match slot m s with Some p => Some (cells m (snd p)) | None => None end.
  Definition is_some {B} (o : option B) : bool := match o with Some _ => true | None => false end.
  Definition taken (f : Z -> option ptr) (l : list Z) : nat := length (filter (fun s => is_some (f s)) l).
  Record sound m : Prop := {
    s_len : len m = live m; s_next : 0 <= next m;
    s_ptr : forall s p, 0 <= s < len m -> slot m s = Some p -> fst p = block m /\ 0 <= snd p < next m;
    s_inj : forall s t p, 0 <= s < len m -> 0 <= t < len m -> slot m s = Some p -> slot m t = Some p -> s = t;
    s_count : next m = Z.of_nat (taken (slot m) (zrange 0 (len m))) }.
  Definition shape m m' : Prop := block m' = block m /\ live m' = live m /\ len m' = len m.

  Lemma shape_refl m : shape m m. Proof. easy. Qed.
  Lemma shape_trans m m' m'' : shape m m' -> shape m' m'' -> shape m m''.
  Proof. unfold shape. intros (a & b & c) (d & e & f). repeat split; congruence. Qed.

  Lemma taken_set (f : Z -> option ptr) s v l : NoDup l -> In s l ->
    (taken (set1 f s v) l + (if is_some (f s) then 1 else 0) = taken f l + (if is_some v then 1 else 0))%nat.
  Proof.
    unfold taken. induction l as [|x l IH]; intros Hn Hi; [ destruct Hi |]. inversion Hn as [|? ? Hx Hl]; subst.
    assert (Hfree : ~ In s l -> filter (fun t => is_some (set1 f s v t)) l = filter (fun t => is_some (f t)) l).
    { intros H. apply filter_ext_in. intros t Ht. unfold set1. destruct (t =? s) eqn:E; [| reflexivity ]. apply Z.eqb_eq in E. subst. easy. }
    cbn [filter]. unfold set1 at 1. destruct (x =? s) eqn:E.
    - apply Z.eqb_eq in E. subst x. rewrite (Hfree Hx). destruct (is_some v), (is_some (f s)); cbn [length]; lia.
    - destruct Hi as [-> | Hi]; [ rewrite Z.eqb_refl in E; discriminate |]. specialize (IH Hl Hi). destruct (is_some (f x)); cbn [length]; lia.
  Qed.
  Lemma taken_full (f : Z -> option ptr) l : (taken f l <= length l)%nat.
  Proof. unfold taken. induction l as [|x l IH]; cbn [filter]; [ apply le_n |]. destruct (is_some (f x)); cbn [length]; lia. Qed.
  Lemma taken_free (f : Z -> option ptr) s l : In s l -> f s = None -> (taken f l < length l)%nat.
  Proof.
    unfold taken. induction l as [|x l IH]; intros Hi Hs; [ destruct Hi |]. cbn [filter length]. pose proof (taken_full f l) as Hf. unfold taken in Hf.
    destruct Hi as [-> | Hi].
    - rewrite Hs. cbn [is_some]. lia.
    - specialize (IH Hi Hs). destruct (is_some (f x)); cbn [length]; lia.
  Qed.
  Lemma range_in n s : In s (zrange 0 n) <-> 0 <= s < n. Proof. rewrite in_zrange. lia. Qed.

  Lemma pointer_ok m s : 0 <= s < len m -> pointer m s = Done (slot m s).
  Proof. intros H. apply access_get. exact H. Qed.
  Lemma next_live m s p : sound m -> 0 <= s < len m -> slot m s = Some p -> 0 <= snd p < live m /\ fst p = block m.
  Proof.
    intros H Hs Hp. destruct (s_ptr m H s p Hs Hp) as [H1 H2]. split; [| exact H1 ]. pose proof (s_count m H) as Hc. pose proof (taken_full (slot m) (zrange 0 (len m))) as Hf.
    unfold zrange in Hf, Hc. rewrite zseq_length in Hf. rewrite (s_len m H) in *. lia.
  Qed.
  Lemma deref_ok m s p : sound m -> 0 <= s < len m -> slot m s = Some p -> deref m p = Done (cells m (snd p)).
  Proof. intros H Hs Hp. destruct (next_live m s p H Hs Hp) as [H1 H2]. unfold deref. rewrite H2, Z.eqb_refl, inside_true by exact H1. reflexivity. Qed.
  Lemma peek_ok m s : sound m -> 0 <= s < len m -> peek m s = Done (val m s).
  Proof.
    intros H Hs. unfold peek. rewrite pointer_ok by exact Hs. cbn [obind]. unfold val. destruct (slot m s) as [p|] eqn:E; [| reflexivity ].
    rewrite (deref_ok m s p H Hs E). reflexivity.
  Qed.
  Lemma word_ok m s a : sound m -> 0 <= s < len m -> val m s = Some a -> word_at m s = Done a.
  Proof.
    intros H Hs Hv. unfold word_at. rewrite pointer_ok by exact Hs. cbn [obind]. unfold val in Hv. destruct (slot m s) as [p|] eqn:E; [| discriminate ].
    rewrite (deref_ok m s p H Hs E). congruence.
  Qed.
  Definition upd {B} (f : Z -> B) (s : Z) (b : B) : Z -> B := fun t => if t =? s then b else f t.

  Lemma put_ok m s a : sound m -> 0 <= s < len m -> val m s <> None ->
    exists m', put m s a = Done m' /\ sound m' /\ shape m m' /\ (forall t, 0 <= t < len m -> val m' t = upd (val m) s (Some a) t) /\ next m' = next m.
  Proof.
    intros H Hs Hv. unfold put. rewrite pointer_ok by exact Hs. cbn [obind]. unfold val in Hv. destruct (slot m s) as [p|] eqn:E; [| easy ].
    unfold assign. destruct (next_live m s p H Hs E) as [H1 H2]. rewrite H2, Z.eqb_refl, inside_true by exact H1. cbn [andb].
    eexists. split; [ reflexivity |]. split; [ destruct H; constructor; assumption |]. split; [ easy |]. split; [| reflexivity ].
    intros t Ht. unfold val, upd. cbn. destruct (t =? s) eqn:Et.
    - apply Z.eqb_eq in Et. subst t. rewrite E. unfold set1. now rewrite Z.eqb_refl.
    - destruct (slot m t) as [q|] eqn:Eq; [| reflexivity ]. unfold set1. destruct (snd q =? snd p) eqn:Ep; [| reflexivity ]. apply Z.eqb_eq in Ep.
      exfalso. apply Z.eqb_neq in Et. apply Et. apply (s_inj m H t s q Ht Hs Eq). destruct (next_live m t q H Ht Eq) as [_ H4].
      rewrite E. f_equal. destruct p, q. cbn in *. congruence.
  Qed.
  Lemma swap_ok m s : sound m -> 0 <= s - 1 -> s < len m ->
    exists m', swap m s = Done m' /\ sound m' /\ shape m m' /\ (forall t, 0 <= t < len m -> val m' t = upd (upd (val m) s (val m (s - 1))) (s - 1) (val m s) t).
  Proof.
    intros H Hs1 Hs2. unfold swap. rewrite !pointer_ok by lia. cbn [obind]. eexists. split; [ reflexivity |].
    assert (Hset : forall t, set1 (set1 (slot m) s (slot m (s - 1))) (s - 1) (slot m s) t = if t =? s - 1 then slot m s else if t =? s then slot m (s - 1) else slot m t).
    { intros t. unfold set1. destruct (t =? s - 1); reflexivity. }
    split; [| split; [ easy |]].
    - constructor; cbn; try apply H.
      + intros t p Ht. rewrite Hset. destruct (t =? s - 1); [ apply (s_ptr m H); lia |]. destruct (t =? s); apply (s_ptr m H); lia.
      + intros t u p Ht Hu. rewrite !Hset.
        destruct (t =? s - 1) eqn:E1; [ apply Z.eqb_eq in E1 | apply Z.eqb_neq in E1; destruct (t =? s) eqn:E2; [ apply Z.eqb_eq in E2 | apply Z.eqb_neq in E2 ]];
        (destruct (u =? s - 1) eqn:E3; [ apply Z.eqb_eq in E3 | apply Z.eqb_neq in E3; destruct (u =? s) eqn:E4; [ apply Z.eqb_eq in E4 | apply Z.eqb_neq in E4 ]]);
        intros G1 G2; match type of G1 with slot m ?a = _ => match type of G2 with slot m ?b = _ => assert (a = b) by (apply (s_inj m H a b p); (lia || assumption)) end end; lia.
      + rewrite (s_count m H). f_equal.
        pose proof (taken_set (set1 (slot m) s (slot m (s - 1))) (s - 1) (slot m s) (zrange 0 (len m)) (nodup_zseq _ _)) as H3.
        pose proof (taken_set (slot m) s (slot m (s - 1)) (zrange 0 (len m)) (nodup_zseq _ _)) as H4.
        assert (I1 : In (s - 1) (zrange 0 (len m))) by (apply range_in; lia). assert (I2 : In s (zrange 0 (len m))) by (apply range_in; lia).
        specialize (H3 I1). specialize (H4 I2).
        replace (set1 (slot m) s (slot m (s - 1)) (s - 1)) with (slot m (s - 1)) in H3
          by (unfold set1; rewrite (proj2 (Z.eqb_neq (s - 1) s)) by lia; reflexivity).
        lia.
    - intros t Ht. unfold val, upd. cbn. rewrite Hset. destruct (t =? s - 1); [ reflexivity |]. destruct (t =? s); reflexivity.
  Qed.
  Lemma free_room m s : sound m -> 0 <= s < len m -> val m s = None -> next m < live m.
  Proof.
    intros H Hs Hv. assert (E : slot m s = None) by (unfold val in Hv; destruct (slot m s); easy). rewrite (s_count m H).
    pose proof (taken_free (slot m) s (zrange 0 (len m)) (proj2 (range_in _ _) Hs) E) as Hf. unfold zrange in *. rewrite zseq_length in Hf. rewrite <- (s_len m H). lia.
  Qed.
  Lemma create_ok m s a : sound m -> 0 <= s < len m -> val m s = None ->
    exists m', create m s a = Done m' /\ sound m' /\ shape m m' /\ (forall t, 0 <= t < len m -> val m' t = upd (val m) s (Some a) t).
  Proof.
    intros H Hs Hv. pose proof (free_room m s H Hs Hv) as Hr. assert (E : slot m s = None) by (unfold val in Hv; destruct (slot m s); easy).
    unfold create. rewrite (proj2 (Z.ltb_lt _ _) Hr), pointer_ok by exact Hs. cbn [obind]. eexists. split; [ reflexivity |]. split; [| split; [ easy |]].
    - constructor; cbn; [ apply H | pose proof (s_next m H); lia | | |].
      + intros t p Ht. unfold set1. destruct (t =? s).
        * intros [= <-]. cbn. pose proof (s_next m H). split; [ reflexivity | lia ].
        * intros Hp. destruct (s_ptr m H t p Ht Hp). split; [ assumption | lia ].
      + intros t u p Ht Hu. unfold set1. destruct (t =? s) eqn:Et, (u =? s) eqn:Eu.
        * lia.
        * intros [= <-] Hq. destruct (s_ptr m H u _ Hu Hq) as [_ Hlt]. cbn in Hlt. lia.
        * intros Hq [= <-]. destruct (s_ptr m H t _ Ht Hq) as [_ Hlt]. cbn in Hlt. lia.
        * apply (s_inj m H t u p Ht Hu).
      + pose proof (taken_set (slot m) s (Some (block m, next m)) (zrange 0 (len m)) (nodup_zseq _ _) (proj2 (range_in _ _) Hs)) as Ht.
        rewrite E in Ht. cbn [is_some] in Ht. rewrite (s_count m H). rewrite <- (s_count m H). rewrite (s_count m H) at 1. lia.
    - intros t Ht. unfold val, upd. cbn. unfold set1 at 1. destruct (t =? s) eqn:Et.
      + cbn. unfold set1. now rewrite Z.eqb_refl.
      + destruct (slot m t) as [p|] eqn:Ep; [| reflexivity ]. destruct (s_ptr m H t p Ht Ep) as [_ Hlt]. unfold set1. rewrite (proj2 (Z.eqb_neq (snd p) (next m))) by lia. reflexivity.
  Qed.

  (* regions of the vector of pointers: [k] places from [b] *)
  Definition within m (b : Z) (k : nat) : Prop := 0 <= b /\ b + Z.of_nat k <= len m.
  Definition all_words (P : A -> Prop) m (b : Z) (k : nat) : Prop := forall t a, b <= t < b + Z.of_nat k -> val m t = Some a -> P a.
  Definition full m (b : Z) (k : nat) : Prop := forall t, b <= t < b + Z.of_nat k -> val m t <> None.
  (* the places without a word come last *)
  Definition packed m (b : Z) (k : nat) : Prop := forall t u, b <= t <= u -> u < b + Z.of_nat k -> val m t = None -> val m u = None.
  Definition elsewhere m m' (b : Z) (k : nat) : Prop := forall t, 0 <= t < len m -> ~ (b <= t < b + Z.of_nat k) -> val m' t = val m t.

  Lemma elsewhere_refl m b k : elsewhere m m b k. Proof. easy. Qed.
  Lemma elsewhere_trans m m' m'' b k : shape m m' -> elsewhere m m' b k -> elsewhere m' m'' b k -> elsewhere m m'' b k.
  Proof. intros (_ & _ & Hl) H1 H2 t Ht Hn. rewrite (H2 t), (H1 t); [ reflexivity | assumption | assumption | rewrite Hl; assumption | assumption ]. Qed.

  Lemma seek_ok (P : A -> Prop) m fits : sound m -> (forall a, P a -> exists b, fits a = Done b) -> forall k s un, within m s k -> all_words P m s k ->
    exists o u, seek m fits k s un = Done (o, u) /\
    match o with
    | Some t => s <= t < s + Z.of_nat k /\ exists a, val m t = Some a /\ fits a = Done true
    | None => (forall t a, s <= t < s + Z.of_nat k -> val m t = Some a -> fits a = Done false) /\ (u = true <-> un = true \/ exists t, s <= t < s + Z.of_nat k /\ val m t = None)
    end.
  Proof.
    intros H Hf. induction k as [|k IH]; intros s un Hw Hp.
    - exists None, un. split; [ reflexivity |]. split; [ intros; lia |]. split; [ now left |]. intros [ He | (t & Ht & _) ]; [ exact He | lia ].
    - cbn [seek]. unfold within in Hw. rewrite peek_ok by (assumption || lia). cbn [obind].
      assert (Hw' : within m (s + 1) k) by (unfold within; lia). assert (Hp' : all_words P m (s + 1) k) by (intros t a Ht; apply Hp; lia).
      destruct (val m s) as [a|] eqn:Ev.
      + destruct (Hf a (Hp s a ltac:(lia) Ev)) as [b Hb]. rewrite Hb. cbn [obind]. destruct b.
        * exists (Some s), un. split; [ reflexivity |]. split; [ lia |]. eauto.
        * destruct (IH (s + 1) un Hw' Hp') as (o & u & E & Ho). exists o, u. split; [ exact E |]. destruct o as [t|].
          -- destruct Ho as [Ht Ha]. split; [ lia | exact Ha ].
          -- destruct Ho as [H1 H2]. split.
             ++ intros t x Ht Hx. destruct (Z.eq_dec t s) as [-> | Hn]; [ congruence |]. apply (H1 t); [ lia | exact Hx ].
             ++ rewrite H2. split; (intros [ He | (t & Ht & Hx) ]; [ now left |]; right; exists t; split; [| exact Hx ]).
                ** lia.
                ** destruct (Z.eq_dec t s) as [-> | Hn]; [ congruence | lia ].
      + destruct (IH (s + 1) true Hw' Hp') as (o & u & E & Ho). exists o, u. split; [ exact E |]. destruct o as [t|].
        * destruct Ho as [Ht Ha]. split; [ lia | exact Ha ].
        * destruct Ho as [H1 H2]. split.
          -- intros t x Ht Hx. destruct (Z.eq_dec t s) as [-> | Hn]; [ congruence |]. apply (H1 t); [ lia | exact Hx ].
          -- split; [ intros _; right; exists s; split; [ lia | exact Ev ] | intros _; apply H2; now left ].
  Qed.

  (* either a word that fits, or a new one at the end *)
  Lemma insert_ok (P : A -> Prop) m fits k b fresh : sound m -> (0 < k)%nat -> (forall a, P a -> exists x, fits a = Done x) -> within m b k -> all_words P m b k -> packed m b k ->
    exists t f m', insert m fits k b fresh = Done (t, f, m') /\ sound m' /\ shape m m' /\ b <= t < b + Z.of_nat k /\
      (f = true -> m' = m /\ exists a, val m t = Some a /\ fits a = Done true) /\
      (f = false -> t = b + Z.of_nat k - 1 /\ (forall u, 0 <= u < len m -> val m' u = upd (val m) t (Some fresh) u)).
  Proof.
    intros H Hk Hf Hw Hp Hpack. unfold insert. destruct (seek_ok P m fits H Hf k b false Hw Hp) as (o & u & E & Ho). rewrite E. cbn [obind fst snd].
    unfold within in Hw. destruct o as [t|].
    - destruct Ho as [Ht Ha]. exists t, true, m. split; [ reflexivity |]. split; [ exact H |]. split; [ apply shape_refl |]. split; [ exact Ht |]. split; [ now split | discriminate ].
    - destruct Ho as [H1 H2]. set (t := b + Z.of_nat k - 1). assert (Ht : 0 <= t < len m) by (unfold t; lia).
      destruct u.
      + assert (Hv : val m t = None).
        { destruct (proj1 H2 eq_refl) as [ He | (x & Hx & Hv) ]; [ discriminate |]. apply (Hpack x t); unfold t; lia || exact Hv. }
        destruct (create_ok m t fresh H Ht Hv) as (m' & E' & Hs & Hsh & Hval). rewrite E'. cbn [obind]. exists t, false, m'.
        split; [ reflexivity |]. split; [ exact Hs |]. split; [ exact Hsh |]. split; [ unfold t; lia |]. split; [ discriminate |]. intros _. now split.
      + assert (Hv : val m t <> None). { intros Hv. assert (false = true) as He; [| discriminate He ]. apply H2. right. exists t. split; [ unfold t; lia | exact Hv ]. }
        destruct (put_ok m t fresh H Ht Hv) as (m' & E' & Hs & Hsh & Hval & _). rewrite E'. cbn [obind]. exists t, false, m'.
        split; [ reflexivity |]. split; [ exact Hs |]. split; [ exact Hsh |]. split; [ unfold t; lia |]. split; [ discriminate |]. intros _. now split.
  Qed.

  (* a word at place p instead of q *)
  Definition moved (f : Z -> option A) (p q : Z) : Z -> option A := fun u => if u =? p then f q else if (p <? u) && (u <=? q) then f (u - 1) else f u.
  Lemma climb_ok (hv : A -> A -> bool) : forall k m s a, sound m -> 0 <= s -> s + Z.of_nat k < len m -> val m (s + Z.of_nat k) = Some a ->
    exists p m', climb m hv k s = Done m' /\ sound m' /\ shape m m' /\ s <= p <= s + Z.of_nat k /\
      (forall u, 0 <= u < len m -> val m' u = moved (val m) p (s + Z.of_nat k) u) /\
      (forall u b, p <= u < s + Z.of_nat k -> val m u = Some b -> hv a b = true) /\
      (p = s \/ exists b, val m (p - 1) = Some b /\ hv a b = false).
  Proof.
    induction k as [|k IH]; intros m s a H Hs Hl Hv.
    - exists s, m. split; [ reflexivity |]. split; [ exact H |]. split; [ apply shape_refl |]. split; [ lia |]. split; [| split; [ intros u b Hu; lia | now left ]].
      intros u Hu. unfold moved. destruct (u =? s) eqn:E; [ apply Z.eqb_eq in E; subst; f_equal; lia |]. apply Z.eqb_neq in E.
      destruct ((s <? u) && (u <=? s + Z.of_nat 0)) eqn:E2; [| reflexivity ]. apply andb_true_iff in E2. rewrite Z.ltb_lt, Z.leb_le in E2. lia.
    - cbn [climb]. set (t := s + Z.of_nat (S k)) in *. assert (Ht : t - 1 = s + Z.of_nat k) by (unfold t; lia). rewrite pointer_ok by lia. cbn [obind].
      assert (Hgo : forall (Hb : forall b, val m (t - 1) = Some b -> hv a b = true), exists p m', obind (swap m t) (fun m' => climb m' hv k s) = Done m' /\ sound m' /\ shape m m' /\ s <= p <= t /\
        (forall u, 0 <= u < len m -> val m' u = moved (val m) p t u) /\ (forall u b, p <= u < t -> val m u = Some b -> hv a b = true) /\ (p = s \/ exists b, val m (p - 1) = Some b /\ hv a b = false)).
      { intros Hb. destruct (swap_ok m t H ltac:(lia) ltac:(lia)) as (m1 & E1 & H1 & Hsh1 & Hval1). rewrite E1. cbn [obind].
        pose proof Hsh1 as (_ & _ & Hlen).
        assert (Hv1 : val m1 (s + Z.of_nat k) = Some a). { rewrite <- Ht, Hval1 by lia. unfold upd. rewrite Z.eqb_refl. exact Hv. }
        destruct (IH m1 s a H1 Hs ltac:(rewrite Hlen; lia) Hv1) as (p & m' & E' & H' & Hsh' & Hp & Hval' & Hall & Hlow).
        exists p, m'. split; [ exact E' |]. split; [ exact H' |]. split; [ exact (shape_trans _ _ _ Hsh1 Hsh') |]. split; [ lia |]. split; [| split ].
        - intros u Hu. rewrite Hval' by (rewrite Hlen; exact Hu). rewrite <- Ht. unfold moved. destruct (u =? p) eqn:Ep.
          + rewrite Hval1 by lia. unfold upd. rewrite Z.eqb_refl. reflexivity.
          + apply Z.eqb_neq in Ep. destruct ((p <? u) && (u <=? t - 1)) eqn:E2.
            * apply andb_true_iff in E2. destruct E2 as [E2 E3]. apply Z.ltb_lt in E2. apply Z.leb_le in E3.
              rewrite (proj2 (Z.ltb_lt p u)), (proj2 (Z.leb_le u t)) by lia. cbn [andb]. rewrite Hval1 by lia. unfold upd.
              rewrite (proj2 (Z.eqb_neq (u - 1) (t - 1))), (proj2 (Z.eqb_neq (u - 1) t)) by lia. reflexivity.
            * apply andb_false_iff in E2. rewrite Hval1 by lia. unfold upd. destruct (u =? t - 1) eqn:E4.
              -- apply Z.eqb_eq in E4. exfalso. destruct E2 as [ E2 | E2 ]; [ apply Z.ltb_ge in E2 | apply Z.leb_gt in E2 ]; lia.
              -- apply Z.eqb_neq in E4. destruct (u =? t) eqn:E5.
                 ++ apply Z.eqb_eq in E5. subst u. rewrite (proj2 (Z.ltb_lt p t)), Z.leb_refl by lia. reflexivity.
                 ++ apply Z.eqb_neq in E5. destruct E2 as [ E2 | E2 ]; [ apply Z.ltb_ge in E2; rewrite (proj2 (Z.ltb_ge p u)) by lia; reflexivity |].
                    apply Z.leb_gt in E2. rewrite (proj2 (Z.leb_gt u t)) by lia. rewrite andb_false_r. reflexivity.
        - intros u b Hu Hub. destruct (Z.eq_dec u (t - 1)) as [-> | Hn]; [ exact (Hb b Hub) |]. apply (Hall u b); [ lia |]. rewrite Hval1 by lia. unfold upd.
          rewrite (proj2 (Z.eqb_neq u (t - 1))), (proj2 (Z.eqb_neq u t)) by lia. exact Hub.
        - destruct Hlow as [ -> | (b & Hb1 & Hb2) ]; [ now left |]. destruct (Z.eq_dec p s) as [ Eps | Nps ]; [ now left |]. right. exists b. split; [| exact Hb2 ].
          rewrite Hval1 in Hb1 by lia. unfold upd in Hb1. rewrite (proj2 (Z.eqb_neq (p - 1) (t - 1))), (proj2 (Z.eqb_neq (p - 1) t)) in Hb1 by lia. exact Hb1. }
      destruct (slot m (t - 1)) as [q|] eqn:Eq.
      + rewrite (word_ok m t a H ltac:(lia) Hv). cbn [obind].
        assert (Hb : exists b, val m (t - 1) = Some b) by (unfold val; rewrite Eq; eauto). destruct Hb as [b Hb].
        rewrite (word_ok m (t - 1) b H ltac:(lia) Hb). cbn [obind]. destruct (hv a b) eqn:Eh.
        * apply Hgo. intros x Hx. congruence.
        * exists t, m. split; [ reflexivity |]. split; [ exact H |]. split; [ apply shape_refl |]. split; [ lia |]. split; [| split ].
          -- intros u Hu. unfold moved. destruct (u =? t) eqn:E; [ apply Z.eqb_eq in E; now subst |].
             destruct ((t <? u) && (u <=? t)) eqn:E2; [| reflexivity ]. apply andb_true_iff in E2. rewrite Z.ltb_lt, Z.leb_le in E2. lia.
          -- intros u x Hu. lia.
          -- right. exists b. now split.
      + apply Hgo. intros b Hb. unfold val in Hb. rewrite Eq in Hb. discriminate.
  Qed.

  Lemma moved_full f p q b k : b <= p -> p <= q -> q < b + Z.of_nat k -> (forall t, b <= t < b + Z.of_nat k -> f t <> None) -> forall t, b <= t < b + Z.of_nat k -> moved f p q t <> None.
  Proof.
    intros H1 H2 H3 Hf t Ht. unfold moved. destruct (t =? p) eqn:E; [ apply Hf; lia |]. destruct ((p <? t) && (t <=? q)) eqn:E2; [| apply Hf; lia ].
    apply andb_true_iff in E2. rewrite Z.ltb_lt, Z.leb_le in E2. apply Hf. lia.
  Qed.
  Lemma moved_packed (f : Z -> option A) p q b k : b <= p -> p <= q -> q < b + Z.of_nat k ->
    (forall t u, b <= t <= u -> u < b + Z.of_nat k -> t <> q -> u <> q -> f t = None -> f u = None) -> f q <> None ->
    (q = b + Z.of_nat k - 1 \/ forall t, b <= t <= q -> f t <> None) -> (p = b \/ f (p - 1) <> None) ->
    forall t u, b <= t <= u -> u < b + Z.of_nat k -> moved f p q t = None -> moved f p q u = None.
  Proof.
    intros H1 H2 H3 Hp Hq Hl Hb t u Ht Hu E.
    assert (Htp : p < t).
    { destruct (Z_lt_le_dec p t) as [ L | L ]; [ exact L | exfalso ]. unfold moved in E. destruct (t =? p) eqn:E1; [ contradiction |]. apply Z.eqb_neq in E1.
      rewrite (proj2 (Z.ltb_ge p t)) in E by lia. cbn [andb] in E. destruct Hb as [ -> | Hb ]; [ lia |]. apply Hb. apply (Hp t (p - 1)); [ lia | lia | lia | lia | exact E ]. }
    assert (Hu1 : moved f p q u = if u <=? q then f (u - 1) else f u).
    { unfold moved. rewrite (proj2 (Z.eqb_neq u p)), (proj2 (Z.ltb_lt p u)) by lia. reflexivity. }
    assert (Ht1 : moved f p q t = if t <=? q then f (t - 1) else f t).
    { unfold moved. rewrite (proj2 (Z.eqb_neq t p)), (proj2 (Z.ltb_lt p t)) by lia. reflexivity. }
    rewrite Hu1. rewrite Ht1 in E. destruct (t <=? q) eqn:Eq; [ apply Z.leb_le in Eq | apply Z.leb_gt in Eq ].
    - destruct (u <=? q) eqn:Eu; [ apply Z.leb_le in Eu | apply Z.leb_gt in Eu ].
      + apply (Hp (t - 1) (u - 1)); (lia || exact E).
      + destruct Hl as [ -> | Hl ]; [ lia |]. exfalso. apply (Hl (t - 1)); [ lia | exact E ].
    - rewrite (proj2 (Z.leb_gt u q)) by lia. apply (Hp t u); (lia || exact E).
  Qed.
  Lemma moved_other f p q b k t : b <= p -> p <= q -> q < b + Z.of_nat k -> ~ (b <= t < b + Z.of_nat k) -> moved f p q t = f t.
  Proof.
    intros H1 H2 H3 Ht. unfold moved. rewrite (proj2 (Z.eqb_neq t p)) by lia. destruct ((p <? t) && (t <=? q)) eqn:E2; [| reflexivity ].
    apply andb_true_iff in E2. rewrite Z.ltb_lt, Z.leb_le in E2. lia.
  Qed.

  (* the words of the pool *)
  Definition cells_all (P : A -> Prop) m : Prop := forall a, 0 <= a < next m -> P (cells m a).
  Lemma cells_val (P : A -> Prop) m t a : sound m -> cells_all P m -> 0 <= t < len m -> val m t = Some a -> P a.
  Proof.
    intros H Hc Ht Hv. unfold val in Hv. destruct (slot m t) as [p|] eqn:E; [| discriminate ]. injection Hv as <-. apply Hc. exact (proj2 (s_ptr m H t p Ht E)).
  Qed.
  Lemma cells_words (P : A -> Prop) m b k : sound m -> cells_all P m -> within m b k -> all_words P m b k.
  Proof. intros H Hc Hw t a Ht. apply cells_val; auto. unfold within in Hw. lia. Qed.
  Lemma assign_cells (P : A -> Prop) m p a m' : assign m p a = Done m' -> P a -> cells_all P m -> cells_all P m'.
  Proof.
    unfold assign. destruct (_ && _); [| discriminate ]. intros E Ha Hc. injection E as <-. intros x Hx. cbn [cells next] in *. unfold set1. destruct (x =? snd p); [ exact Ha | exact (Hc x Hx) ].
  Qed.
  Lemma put_cells (P : A -> Prop) m s a m' : put m s a = Done m' -> P a -> cells_all P m -> cells_all P m'.
  Proof. unfold put. destruct (pointer m s) as [[p|]| | |]; cbn [obind]; try discriminate. apply assign_cells. Qed.
  Lemma create_cells (P : A -> Prop) m s a m' : create m s a = Done m' -> P a -> cells_all P m -> cells_all P m'.
  Proof.
    unfold create. destruct (next m <? live m); [| discriminate ]. destruct (pointer m s) as [o| | |]; cbn [obind]; try discriminate. intros E Ha Hc. injection E as <-. intros x Hx. cbn [cells next] in *.
    unfold set1. destruct (x =? next m) eqn:E; [ exact Ha |]. apply Z.eqb_neq in E. apply Hc. lia.
  Qed.
  Lemma swap_cells (P : A -> Prop) m s m' : swap m s = Done m' -> cells_all P m -> cells_all P m'.
  Proof.
    unfold swap. destruct (pointer m s) as [o| | |]; cbn [obind]; try discriminate. destruct (pointer m (s - 1)) as [o'| | |]; cbn [obind]; try discriminate.
    intros E Hc. injection E as <-. exact Hc.
  Qed.
  Lemma climb_cells (P : A -> Prop) hv : forall k m s m', climb m hv k s = Done m' -> cells_all P m -> cells_all P m'.
  Proof.
    induction k as [|k IH]; intros m s m'; cbn [climb]; [ intros E; injection E as <-; auto |]. set (t := s + Z.of_nat (S k)).
    assert (Hgo : obind (swap m t) (fun m' => climb m' hv k s) = Done m' -> cells_all P m -> cells_all P m').
    { destruct (swap m t) as [m1| | |] eqn:E; cbn [obind]; try discriminate. intros E' Hc. exact (IH _ _ _ E' (swap_cells _ _ _ _ E Hc)). }
    destruct (pointer m (t - 1)) as [[q|]| | |]; cbn [obind]; try discriminate; [| exact Hgo ].
    destruct (word_at m t) as [a| | |]; cbn [obind]; try discriminate. destruct (word_at m (t - 1)) as [b| | |]; cbn [obind]; try discriminate.
    destruct (hv a b); [ exact Hgo |]. intros E Hc. injection E as <-. exact Hc.
  Qed.
  Lemma insert_cells (P : A -> Prop) m fits k b fresh r : insert m fits k b fresh = Done r -> P fresh -> cells_all P m -> cells_all P (snd r).
  Proof.
    unfold insert. destruct (seek m fits k b false) as [[[t|] u]| | |]; cbn [obind fst snd]; try discriminate.
    - intros E _ Hc. injection E as <-. exact Hc.
    - destruct u.
      + destruct (create m _ fresh) as [m'| | |] eqn:E'; cbn [obind]; try discriminate. intros E Hp Hc. injection E as <-. exact (create_cells _ _ _ _ _ E' Hp Hc).
      + destruct (put m _ fresh) as [m'| | |] eqn:E'; cbn [obind]; try discriminate. intros E Hp Hc. injection E as <-. exact (put_cells _ _ _ _ _ E' Hp Hc).
  Qed.

  (* a new store *)
  Lemma renew_sound d e n : 0 <= n -> sound (renew d n (nothing e)) /\ len (renew d n (nothing e)) = n /\ (forall t, val (renew d n (nothing e)) t = None) /\ next (renew d n (nothing e)) = 0.
  Proof.
    intros Hn. assert (Hs : forall t, slot (renew d n (nothing e)) t = None) by (intros t; cbn; destruct (t <? Z.min n 0); reflexivity).
    split; [| split; [ reflexivity |]].
    - split; [ reflexivity | cbn; lia | | |].
      + intros s p _ E. rewrite Hs in E. discriminate.
      + intros s t p _ _ E. rewrite Hs in E. discriminate.
      + change (next (renew d n (nothing e))) with 0. unfold taken. induction (zrange 0 (len (renew d n (nothing e)))) as [|x l IH]; [ reflexivity |]. cbn [filter]. rewrite Hs. exact IH.
    - split; [| reflexivity ]. intros t. unfold val. rewrite Hs. reflexivity.
  Qed.

  (* a full store: every word of the vector is in use *)
  Lemma full_next m : sound m -> 0 <= len m -> (forall t, 0 <= t < len m -> val m t <> None) -> next m = live m.
  Proof.
    intros H Hl Hf. rewrite (s_count m H), <- (s_len m H). assert (E : taken (slot m) (zrange 0 (len m)) = length (zrange 0 (len m))).
    { unfold taken. assert (Hall : forall l, (forall t, In t l -> is_some (slot m t) = true) -> length (filter (fun s => is_some (slot m s)) l) = length l).
      { induction l as [|x l IH]; intros Hx; [ reflexivity |]. cbn [filter]. rewrite (Hx x) by now left. cbn [length]. rewrite IH; [ reflexivity |]. intros t Ht. apply Hx. now right. }
      apply Hall. intros t Ht. apply range_in in Ht. specialize (Hf t Ht). unfold val in Hf. destruct (slot m t); [ reflexivity | easy ]. }
    rewrite E. unfold zrange. rewrite zseq_length. lia.
  Qed.
  Lemma deref_cell m a : sound m -> 0 <= len m -> (forall t, 0 <= t < len m -> val m t <> None) -> 0 <= a < len m -> deref m (block m, a) = Done (cells m a) /\ 0 <= a < next m.
  Proof.
    intros H Hl Hf Ha. rewrite (full_next m H Hl Hf), <- (s_len m H). split; [| exact Ha ]. unfold deref. cbn [fst snd]. rewrite Z.eqb_refl, inside_true by (rewrite <- (s_len m H); exact Ha). reflexivity.
  Qed.
  Lemma assign_cell m p a : sound m -> 0 <= a < len m -> exists m', assign m (block m, a) p = Done m' /\ sound m' /\ shape m m' /\ (forall t, val m t <> None -> val m' t <> None).
  Proof.
    intros H Ha. unfold assign. cbn [fst snd]. rewrite Z.eqb_refl, inside_true by (rewrite <- (s_len m H); exact Ha). cbn [andb]. eexists. split; [ reflexivity |].
    split; [ destruct H; split; assumption |]. split; [ now repeat split |]. intros t. unfold val. cbn [slot cells]. destruct (slot m t); easy.
  Qed.

  (* what the operations on a region do *)
  Record stepped (P : A -> Prop) (b : Z) (k : nat) m m' : Prop := {
    t_sound : sound m'; t_shape : shape m m'; t_cells : cells_all P m'; t_else : elsewhere m m' b k; t_packed : packed m' b k;
    t_full : full m b k -> full m' b k; t_head : val m b <> None -> val m' b <> None }.
  Lemma stepped_refl P b k m : sound m -> cells_all P m -> packed m b k -> stepped P b k m m.
  Proof. intros. split; auto using shape_refl, elsewhere_refl. Qed.
  Lemma stepped_trans P b k m m' m'' : stepped P b k m m' -> stepped P b k m' m'' -> stepped P b k m m''.
  Proof.
    intros [] []. split; auto; [ eapply shape_trans; eassumption | eapply elsewhere_trans; eassumption ].
  Qed.
  Lemma upd_same {B} (f : Z -> option B) s v : upd f s v s = v. Proof. unfold upd. now rewrite Z.eqb_refl. Qed.
  Lemma upd_other {B} (f : Z -> option B) s v t : t <> s -> upd f s v t = f t. Proof. intros H. unfold upd. now rewrite (proj2 (Z.eqb_neq t s)). Qed.

  (* insert, change of the word, climb *)
  Lemma enter_ok (P : A -> Prop) m m1 m2 hv k b t f x fresh : sound m -> (0 < k)%nat -> within m b k -> cells_all P m -> packed m b k ->
    shape m m1 -> b <= t < b + Z.of_nat k -> (f = true -> m1 = m /\ exists a, val m t = Some a) ->
    (f = false -> t = b + Z.of_nat k - 1 /\ (forall u, 0 <= u < len m -> val m1 u = upd (val m) t (Some fresh) u)) ->
    sound m2 -> shape m1 m2 -> cells_all P m2 -> (forall u, 0 <= u < len m -> val m2 u = upd (val m1) t (Some x) u) ->
    ok (fun m3 => stepped P b k m m3 /\ val m3 b <> None) (climb m2 hv (Z.to_nat (t - b)) b).
  Proof.
    intros H Hk Hw Hc Hp Hs1 Ht Hf1 Hf2 H2 Hs2 Hc2 Hv2. unfold within in Hw.
    pose proof (shape_trans _ _ _ Hs1 Hs2) as Hs. pose proof Hs as (_ & _ & Hl).
    assert (Hv : forall u, 0 <= u < len m -> val m2 u = upd (val m) t (Some x) u).
    { intros u Hu. rewrite Hv2 by exact Hu. destruct f.
      - destruct (Hf1 eq_refl) as [-> _]. reflexivity.
      - destruct (Hf2 eq_refl) as [_ E]. unfold upd at 1. destruct (u =? t) eqn:Et; [ apply Z.eqb_eq in Et; subst u; now rewrite upd_same |]. apply Z.eqb_neq in Et. rewrite E by exact Hu. now rewrite !upd_other by exact Et. }
    assert (Hq : b + Z.of_nat (Z.to_nat (t - b)) = t) by lia.
    assert (Hx : val m2 t = Some x) by (rewrite Hv by lia; apply upd_same).
    destruct (climb_ok hv (Z.to_nat (t - b)) m2 b x H2 ltac:(lia) ltac:(rewrite Hl; lia) ltac:(rewrite Hq; exact Hx)) as (p & m3 & E & H3 & Hs3 & Hpb & Hval & _ & Hlow).
    rewrite Hq in *. rewrite E. cbn [ok]. pose proof (climb_cells P hv _ _ _ _ E Hc2) as Hc3.
    assert (Hval' : forall u, 0 <= u < len m -> val m3 u = moved (val m2) p t u) by (intros u Hu; apply Hval; rewrite Hl; exact Hu).
    assert (Hother : forall u, 0 <= u < len m -> u <> t -> val m2 u = val m u) by (intros u Hu Hne; rewrite Hv by exact Hu; now apply upd_other).
    assert (Hpk : packed m3 b k).
    { intros u v Huv Hvk. rewrite !Hval' by lia. apply (moved_packed (val m2) p t b k); try lia.
      - intros u' v' H1' H2' N1 N2. rewrite !Hother by lia. apply Hp; lia.
      - congruence.
      - destruct f; [ right | left; exact (proj1 (Hf2 eq_refl)) ]. destruct (Hf1 eq_refl) as [_ [a Ha]]. intros u' Hu'.
        destruct (Z.eq_dec u' t) as [-> | N]; [ congruence |]. rewrite Hother by lia. intros Hn. rewrite (Hp u' t) in Ha by (lia || exact Hn). discriminate.
      - destruct Hlow as [ -> | (b' & Hb' & _) ]; [ now left | right; congruence ]. }
    assert (Hhead : val m3 b <> None).
    { intros Hn. assert (Hpn : val m3 p = None) by (apply (Hpk b p); lia || exact Hn). rewrite Hval' in Hpn by lia. unfold moved in Hpn. rewrite Z.eqb_refl in Hpn. congruence. }
    split; [| exact Hhead ]. split.
    - exact H3.
    - exact (shape_trans _ _ _ Hs Hs3).
    - exact Hc3.
    - intros u Hu Hn. rewrite Hval' by exact Hu. rewrite (moved_other (val m2) p t b k u) by lia. apply Hother; [ exact Hu | lia ].
    - exact Hpk.
    - intros Hfull u Hu. rewrite Hval' by lia. apply (moved_full (val m2) p t b k); try lia. intros u' Hu'. destruct (Z.eq_dec u' t) as [-> | N]; [ congruence |]. rewrite Hother by lia. apply Hfull. exact Hu'.
    - intros _. exact Hhead.
  Qed.
End Words.
