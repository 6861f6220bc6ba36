From Coq Require Import ZArith List Bool Lia Sorted.
From Verif Require Import Lib.Grid Model.FrameSubset Spec.FrameSubset.
Import ListNotations.
Open Scope Z_scope.

Lemma insert_in x s y : In y (insert x s) <-> y = x \/ In y s.
Proof.
  induction s as [|a r IH]; cbn [insert In]; [intuition|]. destruct (Z.ltb_spec x a); [cbn [In]; intuition|]. destruct (Z.eqb_spec x a) as [->|]; cbn [In]; [intuition|]. rewrite IH. intuition.
Qed.
Lemma insert_sorted x s : increasing s -> increasing (insert x s).
Proof.
  unfold increasing. induction 1 as [|a r Hr IH Ha]; cbn [insert]; [repeat constructor|]. destruct (Z.ltb_spec x a); [constructor; [constructor; assumption|constructor; [assumption|]]|].
  - rewrite Forall_forall in *. intros y Hy. specialize (Ha y Hy). lia.
  - destruct (Z.eqb_spec x a) as [->|]; [constructor; assumption|]. constructor; [exact IH|]. rewrite Forall_forall in *. intros y Hy. apply insert_in in Hy. destruct Hy as [->|Hy]; [lia|exact (Ha y Hy)].
Qed.
Lemma insert_all_ok xs : forall s, (increasing s -> increasing (insert_all xs s)) /\ forall y, In y (insert_all xs s) <-> In y xs \/ In y s.
Proof.
  unfold insert_all. induction xs as [|x xs IH]; intros s; cbn [fold_left]; [split; [auto|cbn; intuition]|]. destruct (IH (insert x s)) as [A B]. split; [intros H; apply A, insert_sorted, H|]. intros y. rewrite B, insert_in. cbn [In]. intuition.
Qed.
Lemma window_ok total w i sub : 0 <= w -> (increasing sub -> increasing (window total w i sub)) /\ forall y, In y (window total w i sub) <-> (0 <= y < total /\ i - w <= y <= i + w) \/ In y sub.
Proof.
  intros Hw. unfold window.
  assert (G : forall fs s, let r := fold_left (fun s f => if (0 <=? f) && (f <? total) then insert f s else s) fs s in (increasing s -> increasing r) /\ forall y, In y r <-> (In y fs /\ 0 <= y < total) \/ In y s).
  { induction fs as [|f fs IH]; intros s; cbn [fold_left]; [split; [auto|cbn; intuition]|]. destruct (Z.leb_spec 0 f), (Z.ltb_spec f total); cbn [andb].
    - destruct (IH (insert f s)) as [A B]. cbv zeta in *. split; [intros K; apply A, insert_sorted, K|]. intros y. rewrite B, insert_in. cbn [In]. intuition (subst; auto; lia).
    - destruct (IH s) as [A B]. cbv zeta in *. split; [exact A|]. intros y. rewrite B. cbn [In]. intuition (subst; auto; lia).
    - destruct (IH s) as [A B]. cbv zeta in *. split; [exact A|]. intros y. rewrite B. cbn [In]. intuition (subst; auto; lia).
    - destruct (IH s) as [A B]. cbv zeta in *. split; [exact A|]. intros y. rewrite B. cbn [In]. intuition (subst; auto; lia). }
  destruct (G (zrange (i - w) (2 * w + 1)) sub) as [A B]. cbv zeta in *. split; [exact A|]. intros y. rewrite B, in_zrange. intuition lia.
Qed.
Lemma read_ok total w lines : 0 <= w -> forall real sub, match read total w lines real sub with
  | Some (real', sub') => readable total w lines /\ (increasing real -> increasing real') /\ (increasing sub -> increasing sub') /\ (forall y, In y real' <-> In (Index y) lines \/ In y real) /\ (forall y, In y sub' <-> near total w lines y \/ In y sub)
  | None => ~ readable total w lines
  end.
Proof.
  intros Hw. induction lines as [|l lines IH]; intros real sub; cbn [read].
  - split; [split; [intros []|intros g []]|]. split; [auto|]. split; [auto|]. split; [cbn; intuition|]. intros y. split; [auto|]. intros [(_ & g & [] & _)|H]; exact H.
  - destruct l as [|i|].
    + specialize (IH real sub). destruct (read total w lines real sub) as [[r s]|].
      * destruct IH as (A & B & C & D & E). split; [destruct A as [A1 A2]; split; [intros [X|X]; [discriminate|auto]|intros g [X|X]; [discriminate|auto]]|]. split; [exact B|]. split; [exact C|].
        split; [intros y; rewrite D; cbn [In]; intuition discriminate|]. intros y. rewrite E. unfold near. split; intros [(P & g & Q & R)|H]; auto; left; (split; [exact P|]); exists g; (split; [|exact R]); cbn [In] in *; [auto|destruct Q as [Q|Q]; [discriminate|exact Q]].
      * intros [A B]. apply IH. split; [intros X; apply A; right; exact X|intros g X; apply B; right; exact X].
    + destruct (Z.leb_spec 0 i), (Z.ltb_spec i total), (Z.ltb_spec (i + w) (2 ^ 31 - 1)); cbn [andb]; try (intros [_ B]; specialize (B i (or_introl eq_refl)); lia).
      specialize (IH (insert i real) (window total w i sub)). destruct (window_ok total w i sub Hw) as [W1 W2]. destruct (read total w lines (insert i real) (window total w i sub)) as [[r s]|].
      * destruct IH as (A & B & C & D & E). split; [destruct A as [A1 A2]; split; [intros [X|X]; [discriminate|auto]|intros g [X|X]; [injection X as <-; lia|auto]]|].
        split; [intros K; apply B, insert_sorted, K|]. split; [intros K; apply C, W1, K|]. split.
        -- intros y. rewrite D, insert_in. cbn [In]. split; [intros [X|[->|X]]; auto|]. intros [[X|X]|X]; [injection X as ->; auto|auto|auto].
        -- intros y. rewrite E, W2. unfold near. cbn [In]. split.
           ++ intros [(P & g & Q & R)|[[P R]|H2]]; [left; split; [exact P|exists g; auto]|left; split; [exact P|exists i; auto]|auto].
           ++ intros [(P & g & [Q|Q] & R)|H2]; [injection Q as ->; auto|left; split; [exact P|exists g; auto]|auto].
      * intros [A B]. apply IH. split; [intros X; apply A; right; exact X|intros g X; apply B; right; exact X].
    + intros [A _]. apply A. left. reflexivity.
Qed.

(* positions *)
Lemma at_in s i : 0 <= i < Z.of_nat (length s) -> In (at_ s i) s.
Proof. intros H. apply nth_In. lia. Qed.
Lemma in_at s f : In f s -> exists i, 0 <= i < Z.of_nat (length s) /\ at_ s i = f.
Proof. intros H. destruct (In_nth s f 0 H) as (n & L & E). exists (Z.of_nat n). split; [lia|]. unfold at_. rewrite Nat2Z.id. exact E. Qed.
Lemma at_lt s : increasing s -> forall i j, 0 <= i < j -> j < Z.of_nat (length s) -> at_ s i < at_ s j.
Proof.
  unfold increasing. induction 1 as [|a r Hr IH Ha]; cbn [length]; intros i j Hi Hj; [lia|]. unfold at_ in *. assert (E : Z.to_nat j = S (Z.to_nat (j - 1))) by lia. rewrite E. cbn [nth].
  destruct (Z.eq_dec i 0) as [->|].
  - cbn [Z.to_nat nth]. rewrite Forall_forall in Ha. apply Ha, nth_In. lia.
  - assert (F : Z.to_nat i = S (Z.to_nat (i - 1))) by lia. rewrite F. cbn [nth]. apply IH; lia.
Qed.
Lemma break_iff s w i : increasing s -> 0 < w -> 0 < i < Z.of_nat (length s) -> exists b, is_break true w s i = Some b /\ (b = true <-> ~ In (at_ s i - 1) s).
Proof.
  intros Hs Hw Hi. unfold is_break. destruct (Z.eqb_spec i 0); [lia|]. cbn [negb]. destruct (Z.ltb_spec w 0); [lia|]. destruct s as [|a r]; [cbn in Hi; lia|]. cbn [is_empty orb]. set (s := a :: r) in *. destruct (Z.eqb_spec w 0); [lia|]. destruct (Z.leb_spec (Z.of_nat (length s)) i); [lia|]. cbn [orb].
  eexists. split; [reflexivity|]. destruct (Z.eqb_spec (at_ s (i - 1) + 1) (at_ s i)) as [E|E]; cbn [negb].
  - split; [discriminate|]. intros X. exfalso. apply X. rewrite <- E. replace (at_ s (i - 1) + 1 - 1) with (at_ s (i - 1)) by lia. apply at_in. lia.
  - split; [|reflexivity]. intros _ X. apply in_at in X. destruct X as (j & Hj & Ej). assert (A := at_lt s Hs (i - 1) i ltac:(lia) ltac:(lia)). destruct (Z.lt_trichotomy j (i - 1)) as [C|[C|C]].
    + assert (B := at_lt s Hs j (i - 1) ltac:(lia) ltac:(lia)). lia.
    + subst j. lia.
    + destruct (Z.eq_dec j i) as [->|]; [lia|]. assert (B := at_lt s Hs i j ltac:(lia) ltac:(lia)). lia.
Qed.
Lemma run_of_frames s w a n : increasing s -> 0 < w -> 0 <= a -> a + Z.of_nat n < Z.of_nat (length s) -> (forall i, a < i <= a + Z.of_nat n -> is_break true w s i = Some false) -> at_ s (a + Z.of_nat n) = at_ s a + Z.of_nat n.
Proof.
  intros Hs Hw Ha. induction n as [|n IH]; intros Hn B; [rewrite !Z.add_0_r; reflexivity|]. specialize (IH ltac:(lia) ltac:(intros; apply B; lia)). specialize (B (a + Z.of_nat (S n)) ltac:(lia)). remember (a + Z.of_nat (S n)) as m eqn:M. unfold is_break in B.
  destruct (Z.eqb_spec m 0); [lia|]. cbn [negb] in B. destruct (is_empty s || (w <? 0)); [discriminate|]. destruct ((w =? 0) || _); [discriminate|]. injection B as B. apply negb_false_iff, Z.eqb_eq in B. rewrite <- B. replace (m - 1) with (a + Z.of_nat n) by lia. rewrite IH. lia.
Qed.
Lemma insert_all_range n : insert_all (zrange 0 n) [] = zrange 0 n.
Proof.
  unfold zrange, insert_all. 
  assert (G : forall k a s, (forall y, In y s -> y < a) -> fold_left (fun s x => insert x s) (zseq a k) s = s ++ zseq a k).
  { induction k as [|k IH]; intros a s H; [rewrite app_nil_r; reflexivity|]. rewrite zseq_S. cbn [fold_left].
    assert (E : insert a s = s ++ [a]). { clear IH. induction s as [|y s IHs]; [reflexivity|]. cbn [insert app]. assert (Y := H y (or_introl eq_refl)). destruct (Z.ltb_spec a y); [lia|]. destruct (Z.eqb_spec a y); [lia|]. rewrite IHs; [reflexivity|]. intros z Hz. apply H. right. exact Hz. }
    rewrite E, IH; [rewrite <- app_assoc; reflexivity|]. intros y Hy. apply in_app_or in Hy. destruct Hy as [Hy|[<-|[]]]; [specialize (H y Hy); lia|lia]. }
  rewrite G; [reflexivity|intros y []].
Qed.
Lemma increasing_range a k : increasing (zseq a k).
Proof. unfold increasing. revert a. induction k as [|k IH]; intros a; [constructor|]. rewrite zseq_S. constructor; [apply IH|]. apply Forall_forall. intros y Hy. apply in_zseq in Hy. lia. Qed.
Lemma same_elements s t : increasing s -> increasing t -> (forall y, In y s <-> In y t) -> s = t.
Proof.
  unfold increasing. intros Hs. revert t. induction Hs as [|a r Hr IH Ha]; intros t Ht E.
  - destruct t as [|b t]; [reflexivity|]. destruct (proj2 (E b) (or_introl eq_refl)).
  - destruct Ht as [|b t Ht Hb]; [destruct (proj1 (E a) (or_introl eq_refl))|]. rewrite Forall_forall in Ha, Hb.
    assert (a = b). { destruct (proj1 (E a) (or_introl eq_refl)) as [X|X]; [auto|]. destruct (proj2 (E b) (or_introl eq_refl)) as [Y|Y]; [auto|]. specialize (Ha _ Y). specialize (Hb _ X). lia. }
    subst b. f_equal. apply IH; [exact Ht|]. intros y. split; intros H.
    + destruct (proj1 (E y) (or_intror H)) as [X|X]; [|exact X]. specialize (Ha y H). lia.
    + destruct (proj2 (E y) (or_intror H)) as [X|X]; [|exact X]. specialize (Hb y H). lia.
Qed.
Lemma last_at s : s <> [] -> last s 0 = at_ s (Z.of_nat (length s) - 1).
Proof.
  induction s as [|a r IH]; [contradiction|]. intros _. destruct r as [|b r]; [reflexivity|]. change (last (a :: b :: r) 0) with (last (b :: r) 0). rewrite IH by discriminate. unfold at_.
  replace (Z.to_nat (Z.of_nat (length (a :: b :: r)) - 1)) with (S (Z.to_nat (Z.of_nat (length (b :: r)) - 1))) by (cbn [length]; lia). reflexivity.
Qed.
Lemma kept_ok {A} (d : A) sub paths : sub <> [] -> (forall f, In f sub -> 0 <= f < Z.of_nat (length paths)) -> exists l, kept d sub paths = Some l /\ length l = length sub /\ forall i, 0 <= i < Z.of_nat (length sub) -> nth (Z.to_nat i) l d = nth (Z.to_nat (at_ sub i)) paths d.
Proof.
  intros N H. unfold kept. assert (L : last sub 0 < Z.of_nat (length paths)). { rewrite last_at by exact N. apply H, at_in. destruct sub; [contradiction|cbn [length]; lia]. }
  apply Z.ltb_lt in L. rewrite L. destruct sub as [|a r]; [contradiction|]. cbn [is_empty negb andb]. set (s := a :: r) in *. eexists. split; [reflexivity|]. split; [apply map_length|]. intros i Hi.
  rewrite (nth_indep _ d (nth (Z.to_nat 0) paths d)) by (rewrite map_length; lia). rewrite (map_nth (fun j => nth (Z.to_nat j) paths d)). reflexivity.
Qed.

(* the pushes *)
Lemma zrange_app a m n : 0 <= m -> 0 <= n -> zrange a m ++ zrange (a + m) n = zrange a (m + n).
Proof.
  intros Hm Hn. unfold zrange. rewrite Z2Nat.inj_add by lia. rewrite <- (Z2Nat.id m) at 2 by lia. generalize (Z.to_nat m) as k, (Z.to_nat n) as j. clear. intros k j. revert a. induction k as [|k IH]; intros a; [cbn [app Nat.add]; rewrite Z.add_0_r; reflexivity|].
  cbn [Nat.add]. rewrite !zseq_S. cbn [app]. f_equal. rewrite <- IH. f_equal. f_equal. lia.
Qed.
Lemma zrange_one a : zrange a 1 = [a].
Proof. unfold zrange. change (Z.to_nat 1) with 1%nat. rewrite zseq_S. reflexivity. Qed.
Lemma zrange_zero a n : n <= 0 -> zrange a n = [].
Proof. intros H. unfold zrange. replace (Z.to_nat n) with O by lia. reflexivity. Qed.
Lemma snd_pairs (c : Z) l : map snd (map (fun e : Z => (c, e)) l) = l.
Proof. induction l as [|x l IH]; cbn; [reflexivity|f_equal; exact IH]. Qed.
(* the next packet to be pushed *)
Definition due (brk : Z -> bool) (depth cur lst : Z) : Z := if brk cur then cur else Z.max lst (cur - depth).
Lemma analyze_ok brk depth : 0 <= depth -> forall n cur lst, lst <= cur -> exists lst', lst <= lst' <= cur + Z.of_nat n /\ (lst' = lst \/ (brk lst' = true /\ cur <= lst' < cur + Z.of_nat n)) /\ (forall i, lst' < i < cur + Z.of_nat n -> cur <= i -> brk i = false) /\
  map snd (analyze n brk depth cur lst) = zrange (due brk depth cur lst) (due brk depth (cur + Z.of_nat n) lst' - due brk depth cur lst).
Proof.
  intros Hd. induction n as [|n IH]; intros cur lst Hl.
  - exists lst. split; [lia|]. split; [auto|]. split; [intros; lia|]. cbn [analyze map]. rewrite Z.add_0_r, Z.sub_diag. reflexivity.
  - cbn [analyze]. set (l1 := if brk cur then cur else lst). assert (L1 : l1 <= cur) by (unfold l1; destruct (brk cur); lia). destruct (IH (cur + 1) l1 ltac:(lia)) as (l2 & A & B & F & C). exists l2.
    assert (D : due brk depth cur lst = cur - Z.min (cur - l1) depth) by (unfold due, l1; destruct (brk cur); lia).
    assert (L2 : lst <= l1) by (unfold l1; destruct (brk cur); lia).
    split; [lia|]. split; [|split].
    + destruct B as [->|[B1 B2]]; [|right; split; [exact B1|lia]]. unfold l1. destruct (brk cur) eqn:E; [right; split; [exact E|lia]|auto].
    + intros i Hi Hc. destruct (Z.eq_dec i cur) as [->|]; [|apply F; lia]. destruct (brk cur) eqn:E; [exfalso; unfold l1 in *; lia|reflexivity].
    + rewrite map_app, C. replace (cur + Z.of_nat (S n)) with (cur + 1 + Z.of_nat n) by lia. set (e := due brk depth (cur + 1 + Z.of_nat n) l2) in *. rewrite D.
      assert (GE : due brk depth (cur + 1) l1 <= e).
      { unfold e, due. destruct n as [|n']; [cbn [Z.of_nat] in *; rewrite Z.add_0_r in *; destruct (brk (cur + 1)); [lia|lia]|]. destruct (brk (cur + 1)) eqn:E1.
        - assert (cur + 1 <= l2). { destruct (Z_lt_le_dec l2 (cur + 1)) as [X|X]; [|exact X]. assert (Y := F (cur + 1) ltac:(lia) ltac:(lia)). congruence. }
          destruct (brk (cur + 1 + Z.of_nat (S n'))); lia.
        - destruct (brk (cur + 1 + Z.of_nat (S n'))); lia. }
      clearbody e. cbv zeta. unfold due in *. destruct (brk (cur + 1)) eqn:E1.
      * rewrite snd_pairs. set (k := Z.min (cur - l1) depth) in *. replace (zrange (cur + 1)) with (zrange (cur - k + (k + 1))) by (f_equal; lia). rewrite zrange_app by lia. f_equal. lia.
      * destruct (Z.leb_spec depth (cur - l1)).
        -- cbn [map snd]. replace (Z.max l1 (cur + 1 - depth)) with (cur - depth + 1) in * by lia. replace (Z.min (cur - l1) depth) with depth by lia. rewrite <- (zrange_one (cur - depth)). rewrite zrange_app by lia. f_equal. lia.
        -- cbn [map app]. f_equal; lia.
Qed.
Lemma analyze_all brk depth n start : 0 <= depth -> brk (start + Z.of_nat n) = true -> map snd (analyze n brk depth start start) = zrange start (Z.of_nat n).
Proof.
  intros Hd B. destruct (analyze_ok brk depth Hd n start start ltac:(lia)) as (l & A & _ & _ & C). rewrite C. unfold due. rewrite B. destruct (brk start); f_equal; lia.
Qed.
Lemma analyze_open brk depth n start : 0 <= depth -> (forall i, start < i <= start + Z.of_nat n -> brk i = false) -> map snd (analyze n brk depth start start) = zrange start (Z.of_nat n - depth).
Proof.
  intros Hd B. destruct (analyze_ok brk depth Hd n start start ltac:(lia)) as (l & A & E & _ & C). assert (l = start). { destruct E as [E|[E1 E2]]; [exact E|]. destruct (Z.eq_dec l start); [auto|]. rewrite B in E1 by lia. discriminate. }
  subst l. rewrite C. destruct n as [|n]; [cbn [Z.of_nat]; rewrite Z.add_0_r, Z.sub_diag, !zrange_zero by lia; reflexivity|]. unfold due. rewrite (B (start + Z.of_nat (S n))) by lia.
  assert (E2 : (if brk start then start else Z.max start (start - depth)) = start) by (destruct (brk start); lia). rewrite E2.
  destruct (Z_le_gt_dec (Z.of_nat (S n) - depth) 0); [rewrite !zrange_zero by lia; reflexivity|f_equal; lia].
Qed.
Lemma analyze_layers brk depth : 0 <= depth -> forall n cur lst, lst <= cur -> (forall i, lst < i < cur -> brk i = false) -> forall c e, In (c, e) (analyze n brk depth cur lst) -> lst <= e /\ cur <= c < cur + Z.of_nat n /\ 0 <= c - e <= depth /\ forall i, e < i <= c -> brk i = false.
Proof.
  intros Hd. induction n as [|n IH]; intros cur lst Hl B c e H; [destruct H|]. cbn [analyze] in H. set (l1 := if brk cur then cur else lst) in *. assert (L1 : lst <= l1 <= cur) by (unfold l1; destruct (brk cur); lia).
  assert (B1 : forall i, l1 < i < cur + 1 -> brk i = false). { intros i Hi. destruct (Z.eq_dec i cur) as [->|]; [unfold l1 in Hi; destruct (brk cur); [lia|reflexivity]|apply B; unfold l1 in Hi; destruct (brk cur); lia]. }
  apply in_app_or in H. destruct H as [H|H].
  - destruct (brk (cur + 1)).
    + cbv zeta in H. apply in_map_iff in H. destruct H as (x & X & Y). injection X as <- <-. apply in_zrange in Y. split; [lia|]. split; [lia|]. split; [lia|]. intros i Hi. apply B1. lia.
    + destruct (Z.leb_spec depth (cur - l1)); [|destruct H]. destruct H as [H|[]]. injection H as <- <-. split; [lia|]. split; [lia|]. split; [lia|]. intros i Hi. apply B1. lia.
  - destruct (IH (cur + 1) l1 ltac:(lia) B1 c e H) as (P & Q & R & T). split; [lia|]. split; [lia|]. split; assumption.
Qed.
