From Coq Require Import List ZArith Arith Bool Lia.
From Verif Require Import Model.Strings Spec.Strings.
Import ListNotations.

Lemma take_until_spec : forall d s t r, take_until d s = (t, r) ->
  ~ In d t /\ ((s = t /\ r = []) \/ s = t ++ [d] ++ r).
Proof.
  induction s as [|c s IH]; intros t r H; cbn in H.
  - injection H as <- <-. split; [intros []|left; auto].
  - destruct (Nat.eqb_spec c d) as [->|Hc].
    + injection H as <- <-. split; [intros []|right; reflexivity].
    + destruct (take_until d s) as [t' u]. injection H as <- <-.
      destruct (IH t' u eq_refl) as [H1 H2]. split.
      * intros [E|E]; [congruence|exact (H1 E)].
      * destruct H2 as [[-> ->]| ->]; [left; auto|right; reflexivity].
Qed.

Lemma split_loop_spec : forall fuel d s, length s < fuel -> s <> [] ->
  split_loop fuel d s <> [] /\
  Forall (fun t => ~ In d t) (split_loop fuel d s) /\
  ((~ ends_with d s /\ join d (split_loop fuel d s) = s) \/ (ends_with d s /\ join d (split_loop fuel d s) ++ [d] = s)).
Proof.
  induction fuel as [|f IH]; intros d s Hf Hs; [lia|].
  destruct s as [|c0 s0] eqn:Es; [congruence|]. rewrite <- Es in *. clear Hs.
  cbn [split_loop getline]. replace (getline d s) with (Some (take_until d s)) by (rewrite Es; reflexivity).
  destruct (take_until d s) as [t r] eqn:Et. destruct (take_until_spec d s t r Et) as [Ht [[-> ->]|E]].
  - (* no delimiter *)
    assert (El : split_loop f d [] = []) by (destruct f; reflexivity). rewrite El.
    split; [discriminate|]. split; [constructor; [exact Ht|constructor]|]. left. split; [|reflexivity].
    intros [p Hp]. apply Ht. rewrite Hp, in_app_iff. right. left. reflexivity.
  - destruct r as [|x r].
    + assert (El : split_loop f d [] = []) by (destruct f; reflexivity). rewrite El.
      split; [discriminate|]. split; [constructor; [exact Ht|constructor]|]. right.
      split; [exists t; rewrite E; reflexivity|]. simpl. rewrite E. reflexivity.
    + assert (Hl : length (x :: r) < f) by (rewrite E in Hf; rewrite !app_length in Hf; simpl in *; lia).
      destruct (IH d (x :: r) Hl ltac:(discriminate)) as (N & F & J).
      split; [discriminate|]. split; [constructor; assumption|].
      assert (Ej : join d (t :: split_loop f d (x :: r)) = t ++ [d] ++ join d (split_loop f d (x :: r)))
        by (destruct (split_loop f d (x :: r)); [congruence|reflexivity]).
      rewrite Ej. destruct J as [[J1 J2]|[[p Hp] J2]].
      * left. split; [|rewrite J2; symmetry; exact E]. intros [p Hp]. apply J1.
        destruct (exists_last (l := x :: r) ltac:(discriminate)) as (q & z & Eq). exists q. rewrite Eq. f_equal. f_equal.
        rewrite E, Eq in Hp. rewrite app_assoc in Hp. rewrite app_assoc in Hp. apply app_inj_tail in Hp. apply Hp.
      * right. split.
        -- exists (t ++ [d] ++ p). rewrite E, Hp, !app_assoc. reflexivity.
        -- rewrite <- !app_assoc, J2. symmetry. exact E.
Qed.

Lemma split_spec : forall s d, s <> [] ->
  Forall (fun t => ~ In d t) (split s d) /\
  ((~ ends_with d s /\ join d (split s d) = s) \/ (ends_with d s /\ join d (split s d) ++ [d] = s)).
Proof.
  intros s d Hs. unfold split. destruct s as [|c r] eqn:E; [congruence|]. rewrite <- E in *.
  apply (split_loop_spec (S (length s)) d s); [lia|exact Hs].
Qed.

Lemma is_prefix_iff : forall t s, is_prefix t s = true <-> exists post, s = t ++ post.
Proof.
  induction t as [|c t IH]; intros s; cbn.
  - split; [intros _; exists s; reflexivity|reflexivity].
  - destruct s as [|x s]; [split; [discriminate|intros [p H]; discriminate]|].
    rewrite andb_true_iff, Nat.eqb_eq, IH. split.
    + intros [-> [p ->]]. exists p. reflexivity.
    + intros [p H]. injection H as -> ->. split; [reflexivity|exists p; reflexivity].
Qed.

Lemma str_find_iff : forall t s, (exists i, str_find s t = Some i) <-> substring_of t s.
Proof.
  intros t. induction s as [|x s IH]; cbn [str_find].
  - destruct (is_prefix t []) eqn:E.
    + apply is_prefix_iff in E. destruct E as [p E]. split; [intros _; exists [], p; exact E|intros _; exists 0; reflexivity].
    + split; [intros [i H]; discriminate|]. intros (pre & post & H). destruct pre; [|discriminate].
      exfalso. assert (is_prefix t [] = true) by (apply is_prefix_iff; exists post; exact H). congruence.
  - destruct (is_prefix t (x :: s)) eqn:E.
    + apply is_prefix_iff in E. destruct E as [p E]. split; [intros _; exists [], p; exact E|intros _; exists 0; reflexivity].
    + split.
      * intros [i H]. destruct (str_find s t) as [k|] eqn:Ek; [|discriminate].
        destruct (proj1 IH (ex_intro _ k eq_refl)) as (pre & post & ->). exists (x :: pre), post. reflexivity.
      * intros (pre & post & H). destruct pre as [|y pre].
        -- exfalso. assert (is_prefix t (x :: s) = true) by (apply is_prefix_iff; exists post; exact H). congruence.
        -- injection H as <- ->. destruct IH as [_ IH]. destruct (IH (ex_intro _ pre (ex_intro _ post eq_refl))) as [i Hi].
           rewrite Hi. exists (S i). reflexivity.
Qed.

Lemma contains_token_iff : forall s tokens, string_contains_token s tokens = true <-> exists t, In t tokens /\ substring_of t s.
Proof.
  intros s. induction tokens as [|t r IH]; cbn [string_contains_token].
  - split; [discriminate|intros (t & [] & _)].
  - destruct (str_find s t) as [i|] eqn:E.
    + split; [|reflexivity]. intros _. exists t. split; [left; reflexivity|]. apply str_find_iff. eauto.
    + rewrite IH. split.
      * intros (u & Hu & Hs). exists u. split; [right; exact Hu|exact Hs].
      * intros (u & [<-|Hu] & Hs); [|eauto]. apply str_find_iff in Hs. destruct Hs as [i Hi]. congruence.
Qed.

Lemma clamp_length : forall s n pad, length (clampString s n pad) = n.
Proof.
  intros s n pad. unfold clampString. destruct (Nat.ltb_spec n (length s)).
  - rewrite firstn_length. lia.
  - rewrite app_length, repeat_length. lia.
Qed.
Lemma clamp_short : forall s n pad, length s <= n -> clampString s n pad = repeat pad (n - length s) ++ s.
Proof. intros s n pad H. unfold clampString. destruct (Nat.ltb_spec n (length s)); [lia|reflexivity]. Qed.
Lemma clamp_long : forall s n pad, n <= length s -> exists rest, s = clampString s n pad ++ rest.
Proof.
  intros s n pad H. unfold clampString. destruct (Nat.ltb_spec n (length s)).
  - exists (skipn n s). symmetry. apply firstn_skipn.
  - exists []. replace (n - length s) with 0 by lia. rewrite app_nil_r. reflexivity.
Qed.

(** ** compare_lowercase *)
Lemma str_lt_irrefl : forall a, str_lt a a = false.
Proof. induction a as [|x a IH]; cbn [str_lt]; [reflexivity|]. rewrite Nat.ltb_irrefl. exact IH. Qed.
Lemma str_lt_trans : forall a b c, str_lt a b = true -> str_lt b c = true -> str_lt a c = true.
Proof.
  induction a as [|x a IH]; intros [|y b] [|z c] H1 H2; cbn [str_lt] in *; try discriminate; try reflexivity.
  repeat match goal with
  | H : context [Nat.ltb ?a ?b] |- _ => destruct (Nat.ltb_spec a b)
  | |- context [Nat.ltb ?a ?b] => destruct (Nat.ltb_spec a b)
  end; try discriminate; try reflexivity; try lia. eapply IH; eassumption.
Qed.
Lemma str_lt_total : forall a b, str_lt a b = false -> str_lt b a = false -> a = b.
Proof.
  induction a as [|x a IH]; intros [|y b] H1 H2; cbn [str_lt] in *; try discriminate; try reflexivity.
  destruct (Nat.ltb_spec x y), (Nat.ltb_spec y x); try discriminate; try lia. f_equal; [lia|]. apply IH; assumption.
Qed.

(** ** putf *)
Lemma resize_exact : forall s k, k <= length s -> resize s k = firstn k s.
Proof. intros s k H. unfold resize. replace (k - length s) with 0 by lia. apply app_nil_r. Qed.

Lemma vsn : forall buf n text b w, 0 < n -> n = length buf -> vsnprintf buf n text = (b, w) ->
  w = length text /\ length b = n /\ firstn n b = b /\
  (length text < n -> firstn (length text) b = text) /\ (n <= length text -> b = firstn (n - 1) text ++ [0]).
Proof.
  intros buf n text b w Hn Hl H. destruct n as [|k]; [lia|]. cbn [vsnprintf] in H.
  assert (Hw : w = length text) by congruence.
  assert (Hb : b = firstn k text ++ [0] ++ skipn (length (firstn k text) + 1) buf) by congruence. clear H.
  assert (Hlb : length b = S k) by (rewrite Hb, !app_length, skipn_length, firstn_length; cbn [length]; lia).
  split; [exact Hw|]. split; [exact Hlb|]. split; [apply firstn_all2; lia|]. split.
  - intros Ht. rewrite Hb, (firstn_all2 (n := k) text) by lia. rewrite firstn_app, firstn_all, Nat.sub_diag. simpl. apply app_nil_r.
  - intros Ht. rewrite Hb, Nat.sub_succ, Nat.sub_0_r, firstn_length. f_equal.
    rewrite skipn_all2 by lia. reflexivity.
Qed.

Lemma putf_spec : forall nbuf text, 0 < nbuf ->
  putf nbuf text = Some (if length text =? nbuf then firstn (nbuf - 1) text ++ [0] else text).
Proof.
  intros nbuf text Hn. unfold putf. destruct (vsnprintf (repeat 0 nbuf) (length (repeat 0 nbuf)) text) as [b1 w1] eqn:E1.
  rewrite repeat_length in E1.
  destruct (vsn _ _ _ _ _ Hn ltac:(symmetry; apply repeat_length) E1) as (-> & L1 & _ & F1 & G1). rewrite L1.
  destruct (Nat.leb_spec (length text) nbuf) as [Hle|Hgt].
  - rewrite resize_exact by lia. f_equal. destruct (Nat.eqb_spec (length text) nbuf) as [He|Hne].
    + rewrite He, <- L1, firstn_all. rewrite L1. apply G1. lia.
    + apply F1. lia.
  - assert (Hr : length (resize b1 (length text + 1)) = length text + 1).
    { unfold resize. rewrite app_length, firstn_length, repeat_length. lia. }
    destruct (vsnprintf (resize b1 (length text + 1)) (length (resize b1 (length text + 1))) text) as [b2 w2] eqn:E2.
    assert (Hp : 0 < length (resize b1 (length text + 1))) by lia. destruct (vsn _ _ _ _ _ Hp eq_refl E2) as (-> & L2 & _ & F2 & _). rewrite L2, Hr.
    destruct (Nat.ltb_spec (length text + 1) (length text)); [lia|].
    rewrite resize_exact by lia. rewrite F2 by lia.
    replace (length text =? nbuf) with false by (symmetry; apply Nat.eqb_neq; lia). reflexivity.
Qed.

Lemma tolower_lower c : lower_of c (tolower c).
Proof.
  unfold lower_of, same_letter, tolower. destruct (Nat.leb_spec 65 c), (Nat.leb_spec c 90); cbn [andb]; split; try lia.
  right. exists (c - 65). lia.
Qed.
Lemma same_letter_lower a b : same_letter a b <-> tolower a = tolower b.
Proof.
  unfold same_letter, tolower. split.
  - intros [->|(k & K & [[-> ->]|[-> ->]])]; auto;
    repeat match goal with |- context [?x <=? ?y] => destruct (Nat.leb_spec x y) end; cbn [andb]; lia.
  - destruct (Nat.leb_spec 65 a), (Nat.leb_spec a 90), (Nat.leb_spec 65 b), (Nat.leb_spec b 90); cbn [andb]; intro E; try (left; lia).
    all: right; (exists (a - 65); lia) || (exists (b - 65); lia).
Qed.
Lemma lower_unique c l : lower_of c l -> l = tolower c.
Proof.
  intros [S N]. apply same_letter_lower in S. rewrite S. unfold tolower. destruct (Nat.leb_spec 65 l), (Nat.leb_spec l 90); cbn [andb]; lia.
Qed.
Lemma same_text_lower : forall a b, same_text a b <-> map tolower a = map tolower b.
Proof.
  unfold same_text. induction a as [|x a IH]; intros [|y b]; cbn [map].
  - split; constructor.
  - split; intro H; inversion H.
  - split; intro H; inversion H.
  - split; intro H.
    + inversion H; subst. f_equal; [ now apply same_letter_lower | now apply IH ].
    + constructor; [ apply same_letter_lower; congruence | apply IH; congruence ].
Qed.
Lemma str_lt_spec : forall a b, str_lt a b = true <->
  (exists p c r, b = p ++ c :: r /\ a = p) \/ (exists p c d r s, a = p ++ c :: r /\ b = p ++ d :: s /\ c < d).
Proof.
  induction a as [|x a IH]; intros [|y b]; cbn [str_lt].
  - split; [ discriminate |]. intros [(p & c & r & E & _)|(p & c & d & r & s & E & _)]; destruct p; discriminate.
  - split; auto. intros _. left. exists [], y, b. auto.
  - split; [ discriminate |]. intros [(p & c & r & E & _)|(p & c & d & r & s & _ & E & _)]; destruct p; discriminate.
  - destruct (Nat.ltb_spec x y) as [H|H]; [| destruct (Nat.ltb_spec y x) as [H'|H'] ].
    + split; auto. intros _. right. exists [], x, y, a, b. auto.
    + split; [ discriminate |]. intros [(p & c & r & E & E')|(p & c & d & r & s & E & E' & L)]; destruct p as [|u p]; cbn [app] in *; try discriminate.
      * assert (x = u) by congruence. assert (y = u) by congruence. lia.
      * assert (x = c) by congruence. assert (y = d) by congruence. lia.
      * assert (x = u) by congruence. assert (y = u) by congruence. lia.
    + assert (x = y) by lia. subst y. rewrite IH. split.
      * intros [(p & c & r & E & E')|(p & c & d & r & s & E & E' & L)].
        -- left. exists (x :: p), c, r. cbn [app]. split; congruence.
        -- right. exists (x :: p), c, d, r, s. cbn [app]. repeat split; congruence || auto.
      * intros [(p & c & r & E & E')|(p & c & d & r & s & E & E' & L)]; destruct p as [|u p]; cbn [app] in *; try discriminate.
        -- left. exists p, c, r. split; congruence.
        -- assert (c = d) by congruence. lia.
        -- right. exists p, c, d, r, s. repeat split; congruence || auto.
Qed.
Lemma map_split {A B} (f : A -> B) l p c r : map f l = p ++ c :: r -> exists p' c' r', l = p' ++ c' :: r' /\ map f p' = p /\ f c' = c /\ map f r' = r.
Proof.
  revert l. induction p as [|u p IH]; intros [|v l] E; cbn [map app] in E; try discriminate.
  - exists [], v, l. cbn. repeat split; congruence.
  - assert (f v = u) by congruence. destruct (IH l ltac:(congruence)) as (p' & c' & r' & -> & <- & <- & <-). exists (v :: p'), c', r'. cbn. repeat split; congruence.
Qed.
Lemma compare_lowercase_spec : forall a b, compare_lowercase a b = true <->
  (exists p c r, b = p ++ c :: r /\ same_text a p) \/
  (exists p q c d r s lc ld, a = p ++ c :: r /\ b = q ++ d :: s /\ same_text p q /\ lower_of c lc /\ lower_of d ld /\ lc < ld).
Proof.
  intros a b. unfold compare_lowercase. rewrite str_lt_spec. split.
  - intros [(p & c & r & E & E')|(p & c & d & r & s & E & E' & L)].
    + left. destruct (map_split _ _ _ _ _ E) as (p' & c' & r' & -> & Hp & _ & _). exists p', c', r'. split; auto. apply same_text_lower. congruence.
    + right. destruct (map_split _ _ _ _ _ E) as (p1 & c1 & r1 & -> & H1 & H2 & H3). destruct (map_split _ _ _ _ _ E') as (p2 & c2 & r2 & -> & K1 & K2 & K3).
      exists p1, p2, c1, c2, r1, r2, (tolower c1), (tolower c2). repeat split; try apply tolower_lower.
      * apply same_text_lower. congruence.
      * congruence.
  - intros [(p & c & r & -> & S)|(p & q & c & d & r & s & lc & ld & -> & -> & S & Lc & Ld & L)].
    + left. exists (map tolower p), (tolower c), (map tolower r). rewrite map_app. cbn [map]. split; auto. now apply same_text_lower.
    + right. exists (map tolower p), (tolower c), (tolower d), (map tolower r), (map tolower s). rewrite !map_app. cbn [map].
      apply same_text_lower in S. apply lower_unique in Lc. apply lower_unique in Ld. subst. rewrite S. auto.
Qed.
