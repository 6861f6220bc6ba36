From Coq Require Import ZArith List Bool Lia.
From Verif Require Import Lib.Grid Model.Submodular Spec.Submodular Proofs.Submodular Proofs.SubmodularLinear Proofs.SubmodularNormal Proofs.SubmodularPerm.
Import ListNotations.
Open Scope Z_scope.

(* sets without one element *)
Lemma flip_in s i : 0 <= i -> Z.testbit s i = true -> Z.lxor s (2 ^ i) = s - 2 ^ i.
Proof.
  intros Hi E. rewrite Z.sub_nocarry_ldiff.
  - apply bits_ext. intros b Hb. rewrite flip_spec, Z.ldiff_spec, pow_spec by lia. destruct (Z.eqb_spec i b) as [<-|]; [rewrite E; reflexivity|cbn [negb]; rewrite andb_true_r; reflexivity].
  - apply bits_ext. intros b Hb. rewrite Z.ldiff_spec, pow_spec, Z.bits_0 by lia. destruct (Z.eqb_spec i b) as [<-|]; [rewrite E|]; reflexivity.
Qed.
Lemma flip_out s i : 0 <= i -> Z.testbit s i = false -> Z.lxor s (2 ^ i) = s + 2 ^ i.
Proof.
  intros Hi E. symmetry. apply Z.add_nocarry_lxor. apply Z.eqb_eq. rewrite land_pow, E by lia. reflexivity.
Qed.
Lemma flip_leb s i : 0 <= i -> (s <=? Z.lxor s (2 ^ i)) = negb (Z.testbit s i).
Proof.
  intros Hi. assert (P := pow_pos i Hi). destruct (Z.testbit s i) eqn:E; [rewrite flip_in by assumption; apply Z.leb_gt; lia|rewrite flip_out by assumption; apply Z.leb_le; lia].
Qed.
Definition minus (s i : Z) : Z := Z.lxor s (2 ^ i).
Definition both (s i j : Z) : Z := Z.land (minus s i) (minus s j).
Lemma both_spec s i j : 0 <= i -> 0 <= j -> i <> j -> Z.testbit s i = true -> Z.testbit s j = true -> both s i j = minus (minus s i) j.
Proof.
  intros Hi Hj N Ei Ej. unfold both, minus. apply bits_ext. intros b Hb. rewrite Z.land_spec, !flip_spec by lia.
  destruct (Z.eqb_spec i b), (Z.eqb_spec j b); try lia; subst; rewrite ?Ei, ?Ej; try reflexivity. apply andb_diag.
Qed.
Lemma pc_minus n s i : 0 <= i < n -> within n s -> Z.testbit s i = true -> within n (minus s i) /\ pc (minus s i) = pc s - 1.
Proof.
  intros Hi H E. assert (W : within n (minus s i)) by (apply within_lxor; [lia|assumption|apply within_pow; lia]). split; [exact W|].
  rewrite <- !(size_pc n) by (lia || assumption). unfold size, minus. rewrite weight_flip, E by lia. lia.
Qed.
Lemma pc_plus n s i : 0 <= i < n -> within n s -> Z.testbit s i = false -> within n (Z.lor s (2 ^ i)) /\ pc (Z.lor s (2 ^ i)) = pc s + 1.
Proof.
  intros Hi H E. assert (W : within n (Z.lor s (2 ^ i))) by (apply within_lor; [lia|assumption|apply within_pow; lia]). split; [exact W|].
  replace (Z.lor s (2 ^ i)) with (Z.lxor s (2 ^ i)) in *.
  - rewrite <- !(size_pc n) by (lia || assumption). unfold size. rewrite weight_flip, E by lia. lia.
  - apply Z.lxor_lor. apply Z.eqb_eq. rewrite land_pow, E by lia. reflexivity.
Qed.
Lemma pc_both n s i j : 0 <= i < n -> 0 <= j < n -> i <> j -> within n s -> Z.testbit s i = true -> Z.testbit s j = true ->
  within n (both s i j) /\ pc (both s i j) = pc s - 2.
Proof.
  intros Hi Hj N H Ei Ej. rewrite both_spec by (lia || assumption). destruct (pc_minus n s i Hi H Ei) as [W P].
  assert (E : Z.testbit (minus s i) j = true) by (unfold minus; rewrite flip_spec by lia; destruct (Z.eqb_spec i j); [lia|assumption]).
  destruct (pc_minus n (minus s i) j Hj W E). split; [assumption|lia].
Qed.

(* the same condition, from above *)
Definition pairs (f : Z -> Z) (n s : Z) : Prop := forall i j, 0 <= i < n -> 0 <= j < n -> i < j -> Z.testbit s i = true -> Z.testbit s j = true ->
  f s + f (both s i j) <= f (minus s i) + f (minus s j).
Lemma pairs_local n f : 0 <= n -> ((forall s, within n s -> pairs f n s) <-> local n f).
Proof.
  intros Hn. split.
  - intros H s i j Hs Hi Hj Hij Ei Ej. set (t := Z.lor (Z.lor s (2 ^ i)) (Z.lor s (2 ^ j))).
    assert (T : forall b, 0 <= b -> Z.testbit t b = Z.testbit s b || (i =? b) || (j =? b)).
    { intros b Hb. unfold t. rewrite !Z.lor_spec, !pow_spec by lia. destruct (Z.testbit s b), (i =? b), (j =? b); reflexivity. }
    assert (Wt : within n t) by (unfold t; repeat (apply within_lor; try lia; try assumption; try (apply within_pow; lia))).
    assert (X := H t Wt i j Hi Hj Hij ltac:(rewrite T, Z.eqb_refl, orb_true_r by lia; reflexivity) ltac:(rewrite T, Z.eqb_refl, orb_true_r by lia; reflexivity)).
    replace (minus t i) with (Z.lor s (2 ^ j)) in X.
    2:{ apply bits_ext. intros b Hb. unfold minus. rewrite flip_spec, T, Z.lor_spec, pow_spec by lia. destruct (Z.eqb_spec i b) as [<-|]; [rewrite Ei; destruct (Z.eqb_spec j i); [lia|reflexivity]|rewrite orb_false_r; reflexivity]. }
    replace (minus t j) with (Z.lor s (2 ^ i)) in X.
    2:{ apply bits_ext. intros b Hb. unfold minus. rewrite flip_spec, T, Z.lor_spec, pow_spec by lia. destruct (Z.eqb_spec j b) as [<-|]; [rewrite Ej; destruct (Z.eqb_spec i j); [lia|reflexivity]|rewrite orb_false_r; reflexivity]. }
    replace (both t i j) with s in X; [lia|]. unfold both, minus. apply bits_ext. intros b Hb. rewrite Z.land_spec, !flip_spec, T by lia.
    destruct (Z.eqb_spec i b), (Z.eqb_spec j b); try lia; subst; rewrite ?Ei, ?Ej; try reflexivity. rewrite !orb_false_r, andb_diag. reflexivity.
  - intros L s Hs i j Hi Hj Hij Ei Ej. destruct (pc_both n s i j Hi Hj ltac:(lia) Hs Ei Ej) as [W _].
    assert (B : forall b, 0 <= b -> Z.testbit (both s i j) b = Z.testbit s b && negb (i =? b) && negb (j =? b)).
    { intros b Hb. unfold both, minus. rewrite Z.land_spec, !flip_spec by lia. destruct (Z.eqb_spec i b), (Z.eqb_spec j b); try lia; subst; rewrite ?Ei, ?Ej; try reflexivity.
      cbn [negb]. rewrite !andb_true_r. apply andb_diag. }
    assert (X := L (both s i j) i j W Hi Hj Hij ltac:(rewrite B, Z.eqb_refl, andb_false_r by lia; reflexivity) ltac:(rewrite B, Z.eqb_refl, andb_false_r by lia; reflexivity)).
    assert (Y1 : Z.lor (both s i j) (2 ^ i) = minus s j).
    { apply bits_ext. intros b Hb. unfold minus. rewrite Z.lor_spec, B, flip_spec, pow_spec by lia. destruct (Z.eqb_spec i b), (Z.eqb_spec j b); try lia; subst; rewrite ?Ei, ?Ej; try reflexivity.
      cbn [negb]. rewrite !andb_true_r, orb_false_r. reflexivity. }
    assert (Y2 : Z.lor (both s i j) (2 ^ j) = minus s i).
    { apply bits_ext. intros b Hb. unfold minus. rewrite Z.lor_spec, B, flip_spec, pow_spec by lia. destruct (Z.eqb_spec i b), (Z.eqb_spec j b); try lia; subst; rewrite ?Ei, ?Ej; try reflexivity.
      cbn [negb]. rewrite !andb_true_r, orb_false_r. reflexivity. }
    rewrite Y1, Y2 in X. replace (Z.lor (minus s j) (minus s i)) with s in X; [lia|]. apply bits_ext. intros b Hb. unfold minus. rewrite Z.lor_spec, !flip_spec by lia.
    destruct (Z.eqb_spec i b), (Z.eqb_spec j b); try lia; subst; rewrite ?Ei, ?Ej; try reflexivity. rewrite orb_diag. reflexivity.
Qed.

(* folds that keep the highest value *)
Definition highest {A} (ok : A -> Prop) (e : A -> Z) (a r : Z) : Prop := a <= r /\ (forall x, ok x -> e x <= r) /\ (r = a \/ exists x, ok x /\ r = e x).
Lemma inner_max (skip : Z -> bool) (e : Z -> Z) l a :
  highest (fun j => In j l /\ skip j = false) e a (fold_left (fun acc j => if skip j then acc else if acc <? e j then e j else acc) l a).
Proof.
  revert a. induction l as [|j l IH]; intros a; cbn [fold_left]; [split; [lia|split; [intros x [[] _]|left; reflexivity]]|].
  set (a' := if skip j then a else _). destruct (IH a') as (A & B & C). set (r := fold_left _ l a') in *.
  assert (A' : a <= a' /\ (skip j = false -> e j <= a') /\ (a' = a \/ skip j = false /\ a' = e j)).
  { unfold a'. destruct (skip j); [repeat split; [lia|discriminate|tauto]|]. destruct (Z.ltb_spec a (e j)); repeat split; lia. }
  destruct A' as (A1 & A2 & A3). split; [lia|]. split.
  - intros x [[->|I] K]; [specialize (A2 K); lia|apply B; auto].
  - destruct C as [C|(x & [I K] & C)]; [|right; exists x; cbn [In]; auto]. destruct A3 as [A3|[A3 A4]]; [left; congruence|right; exists j; cbn [In]; split; [auto|congruence]].
Qed.
Lemma outer_max (skip : Z -> bool) (f : Z -> Z -> Z) (ok : Z -> Z -> Prop) (e : Z -> Z -> Z) l a : (forall i a, In i l -> skip i = false -> highest (ok i) (e i) a (f i a)) ->
  highest (fun p => In (fst p) l /\ skip (fst p) = false /\ ok (fst p) (snd p)) (fun p => e (fst p) (snd p)) a (fold_left (fun acc i => if skip i then acc else f i acc) l a).
Proof.
  revert a. induction l as [|i l IH]; intros a H; cbn [fold_left]; [split; [lia|split; [intros x [[] _]|left; reflexivity]]|].
  set (a' := if skip i then a else _). destruct (IH a' ltac:(intros; apply H; cbn [In]; auto)) as (A & B & C). set (r := fold_left _ l a') in *.
  assert (A' : a <= a' /\ (skip i = false -> forall j, ok i j -> e i j <= a') /\ (a' = a \/ skip i = false /\ exists j, ok i j /\ a' = e i j)).
  { unfold a'. destruct (skip i) eqn:K; [repeat split; [lia|discriminate|tauto]|]. destruct (H i a ltac:(cbn [In]; auto) K) as (X & Y & Z). repeat split; [assumption|intros _; exact Y|].
    destruct Z; [left; assumption|right; split; [reflexivity|assumption]]. }
  destruct A' as (A1 & A2 & A3). split; [lia|]. split.
  - intros [x y]. cbn [fst snd]. intros ([->|I] & K & O); [specialize (A2 K y O); lia|apply (B (x, y)); cbn [fst snd]; auto].
  - destruct C as [C|([x y] & (I & K & O) & C)]; [|right; exists (x, y); cbn [fst snd In] in *; auto].
    destruct A3 as [A3|(A3 & j & O & A4)]; [left; congruence|right; exists (i, j); cbn [fst snd In]; split; [auto|congruence]].
Qed.
Lemma subtract_ok n f s : 0 <= n ->
  0 <= subtract_from n f s /\
  (forall i j, 0 <= i < n -> 0 <= j < n -> i < j -> Z.testbit s i = true -> Z.testbit s j = true -> f s + f (both s i j) - f (minus s i) - f (minus s j) <= subtract_from n f s) /\
  (subtract_from n f s = 0 \/ exists i j, 0 <= i < n /\ 0 <= j < n /\ i < j /\ Z.testbit s i = true /\ Z.testbit s j = true /\
    subtract_from n f s = f s + f (both s i j) - f (minus s i) - f (minus s j)).
Proof.
  intros Hn.
  assert (X := outer_max (fun i => s <=? Z.lxor s (2 ^ i))
    (fun i acc => fold_left (fun acc j => let sj := Z.lxor s (2 ^ j) in if s <=? sj then acc else
       let d := excess f s (Z.lxor s (2 ^ i)) sj (Z.land (Z.lxor s (2 ^ i)) sj) in if acc <? d then d else acc) (zrange (i + 1) (n - (i + 1))) acc)
    (fun i j => In j (zrange (i + 1) (n - (i + 1))) /\ (s <=? Z.lxor s (2 ^ j)) = false) (fun i j => f s + f (both s i j) - f (minus s i) - f (minus s j)) (zrange 0 n) 0).
  fold (subtract_from n f s) in X. destruct X as (A & B & C).
  - intros i a I K. exact (inner_max (fun j => s <=? Z.lxor s (2 ^ j)) (fun j => f s + f (both s i j) - f (minus s i) - f (minus s j)) _ a).
  - change (fold_left _ (zrange 0 n) 0) with (subtract_from n f s) in *. split; [exact A|]. split.
    + intros i j Hi Hj Hij Ei Ej. apply (B (i, j)). cbn [fst snd]. rewrite !flip_leb, Ei, Ej, !in_zrange by lia. cbn [negb]. repeat split; lia.
    + destruct C as [C|([i j] & (I & K & J & K') & C)]; [left; exact C|right]. cbn [fst snd] in *. apply in_zrange in I, J. rewrite flip_leb in K, K' by lia.
      apply negb_false_iff in K, K'. exists i, j. repeat split; (lia || assumption).
Qed.
Lemma subtract_ext n f g s : 0 <= n -> within n s -> f s = g s -> (forall t, within n t -> pc t < pc s -> f t = g t) -> subtract_from n f s = subtract_from n g s.
Proof.
  intros Hn Hs E H. destruct (subtract_ok n f s Hn) as (A & B & C), (subtract_ok n g s Hn) as (A' & B' & C').
  assert (X : forall i j, 0 <= i < n -> 0 <= j < n -> i < j -> Z.testbit s i = true -> Z.testbit s j = true ->
    f s + f (both s i j) - f (minus s i) - f (minus s j) = g s + g (both s i j) - g (minus s i) - g (minus s j)).
  { intros i j Hi Hj Hij Ei Ej. destruct (pc_both n s i j Hi Hj ltac:(lia) Hs Ei Ej), (pc_minus n s i Hi Hs Ei), (pc_minus n s j Hj Hs Ej). rewrite E, !H by (assumption || lia). reflexivity. }
  apply Z.le_antisymm.
  - destruct C as [->|(i & j & Hi & Hj & Hij & Ei & Ej & ->)]; [exact A'|]. rewrite X by assumption. apply B'; assumption.
  - destruct C' as [->|(i & j & Hi & Hj & Hij & Ei & Ej & ->)]; [exact A|]. rewrite <- X by assumption. apply B; assumption.
Qed.

(* one level *)
Lemma lower_level_list n k l : 0 <= n -> NoDup l -> (forall x, In x l -> within n x /\ pc x = k) -> forall f d ch,
  exists g d' ch', fold_left (fun st s => lower_step n s st) l (f, d, ch) = (g, d', ch') /\
    (forall S, In S l -> g S = f S - subtract_from n f S) /\ (forall S, ~ In S l -> g S = f S) /\
    highest (fun S => In S l) (subtract_from n f) d d' /\ (ch' = true <-> ch = true \/ exists S, In S l /\ 0 < subtract_from n f S).
Proof.
  intros Hn ND Hl f. assert (G : forall l2 l1 g d ch, NoDup (l1 ++ l2) -> (forall x, In x (l1 ++ l2) -> within n x /\ pc x = k) ->
    (forall S, In S l1 -> g S = f S - subtract_from n f S) -> (forall S, ~ In S l1 -> g S = f S) ->
    exists g' d' ch', fold_left (fun st s => lower_step n s st) l2 (g, d, ch) = (g', d', ch') /\
    (forall S, In S (l1 ++ l2) -> g' S = f S - subtract_from n f S) /\ (forall S, ~ In S (l1 ++ l2) -> g' S = f S) /\
    highest (fun S => In S l2) (subtract_from n f) d d' /\ (ch' = true <-> ch = true \/ exists S, In S l2 /\ 0 < subtract_from n f S)).
  { induction l2 as [|s l2 IH]; intros l1 g d ch N W A B.
    - exists g, d, ch. rewrite app_nil_r. repeat split; try assumption; try lia; try tauto. intros x []. intros [H|(S & [] & _)]; exact H.
    - cbn [fold_left lower_step]. assert (Ws : within n s /\ pc s = k) by (apply W, in_or_app; right; left; reflexivity).
      assert (Ns : ~ In s l1). { apply NoDup_remove_2 in N. intros I. apply N, in_or_app. left. exact I. }
      assert (Xs : subtract_from n g s = subtract_from n f s).
      { apply subtract_ext; [lia|tauto|apply B; assumption|]. intros t Wt Pt. apply B. intros I. assert (Y := proj2 (W t ltac:(apply in_or_app; left; assumption))). lia. }
      rewrite Xs, (B s Ns).
      destruct (IH (l1 ++ [s]) (upd g s (f s - subtract_from n f s)) (Z.max d (subtract_from n f s)) (ch || (0 <? subtract_from n f s))) as (g' & d' & ch' & E & A' & B' & C' & D').
      + rewrite <- app_assoc. exact N.
      + rewrite <- app_assoc. exact W.
      + intros S I. unfold upd. destruct (Z.eqb_spec S s) as [->|Ne]; [reflexivity|]. apply A. apply in_app_or in I. destruct I as [I|[->|[]]]; [exact I|congruence].
      + intros S I. unfold upd. destruct (Z.eqb_spec S s) as [->|Ne]; [exfalso; apply I, in_or_app; right; left; reflexivity|]. apply B. intros J. apply I, in_or_app. left. exact J.
      + exists g', d', ch'. rewrite <- app_assoc in A', B'. cbn [app] in A', B'. split; [exact E|]. split; [exact A'|]. split; [exact B'|]. split.
        * destruct C' as (C1 & C2 & C3). split; [lia|]. split; [intros x [->|I]; [lia|apply C2; exact I]|].
          destruct C3 as [C3|(x & I & C3)]; [|right; exists x; split; [right|]; assumption]. destruct (Z.max_spec d (subtract_from n f s)) as [[_ M]|[_ M]]; rewrite M in C3; [right; exists s; split; [left; reflexivity|exact C3]|left; exact C3].
        * rewrite D', orb_true_iff, Z.ltb_lt. split.
          -- intros [[H|H]|(S & I & H)]; [left; exact H|right; exists s; split; [left; reflexivity|exact H]|right; exists S; split; [right|]; assumption].
          -- intros [H|(S & [->|I] & H)]; [left; left; exact H|left; right; exact H|right; exists S; split; assumption]. }
  intros d ch. destruct (G l [] f d ch) as (g & d' & ch' & H); [exact ND|exact Hl|intros S []|reflexivity|]. exists g, d', ch'. exact H.
Qed.
Lemma lower_level_ok z n k f d : 0 <= n < 32 -> 1 <= k <= n -> exists g d' ch,
  walk z (turns n) (2 ^ n - 1) (2 ^ k - 1) (lower_step n) (f, d, false) = Done (g, d', ch) /\
  (forall S, within n S -> pc S = k -> g S = f S - subtract_from n f S) /\ (forall S, ~ (within n S /\ pc S = k) -> g S = f S) /\
  highest (fun S => within n S /\ pc S = k) (subtract_from n f) d d' /\ (ch = true <-> exists S, within n S /\ pc S = k /\ 0 < subtract_from n f S).
Proof.
  intros Hn Hk. destruct (walk_level z n k Hn Hk) as (l & A & ND & B). destruct (lower_level_list n k l ltac:(lia) ND (fun x I => proj1 (B x) I) f d false) as (g & d' & ch & E & C1 & C2 & (D1 & D2 & D3) & F).
  exists g, d', ch. split; [rewrite A, E; reflexivity|]. split; [intros S W P; apply C1, B; auto|]. split; [intros S N; apply C2; intros I; apply N, B, I|]. split.
  - split; [exact D1|]. split; [intros x W; apply D2, B, W|]. destruct D3 as [D3|(x & I & D3)]; [left; exact D3|right; exists x; split; [apply B, I|exact D3]].
  - rewrite F. split.
    + intros [H|(S & I & H)]; [discriminate|]. apply B in I. exists S. tauto.
    + intros (S & W & P & H). right. exists S. split; [apply B; auto|exact H].
Qed.

(* all levels *)
Definition lowered (n K : Z) (f g : Z -> Z) (d : Z) : Prop :=
  (forall S, ~ (within n S /\ pc S <= K) -> g S = f S) /\
  (forall S, within n S -> pc S <= K -> g S <= f S /\ pairs g n S /\ f S - g S <= d /\
    (g S = f S \/ exists i j, 0 <= i < n /\ 0 <= j < n /\ i < j /\ Z.testbit S i = true /\ Z.testbit S j = true /\ g S + g (both S i j) = g (minus S i) + g (minus S j))) /\
  0 <= d /\ (d = 0 \/ exists S, within n S /\ d = f S - g S).
Ltac out := intros [? ?]; first [lia | match goal with H : ~ _ |- _ => apply H; split; [assumption|lia] end].
Lemma lowered_step n k f g0 d0 g d : 0 <= n -> 0 <= k -> lowered n k f g0 d0 ->
  (forall S, within n S -> pc S = k + 1 -> g S = g0 S - subtract_from n g0 S) -> (forall S, ~ (within n S /\ pc S = k + 1) -> g S = g0 S) ->
  highest (fun S => within n S /\ pc S = k + 1) (subtract_from n g0) d0 d -> lowered n (k + 1) f g d.
Proof.
  intros Hn Hk (A & B & C & D) G1 G2 (M1 & M2 & M3).
  assert (Low : forall t, within n t -> pc t < k + 1 -> g t = g0 t) by (intros t _ P; apply G2; out).
  split; [|split; [|split]].
  - intros S H. rewrite G2 by out. apply A. out.
  - intros S W P. destruct (Z.eq_dec (pc S) (k + 1)) as [E|N].
    + assert (F : g0 S = f S) by (apply A; out). destruct (subtract_ok n g0 S Hn) as (X & Y & Z). rewrite (G1 S W E). split; [lia|]. split; [|split].
      * intros i j Hi Hj Hij Ei Ej. destruct (pc_both n S i j Hi Hj ltac:(lia) W Ei Ej) as [W1 P1], (pc_minus n S i Hi W Ei) as [W2 P2], (pc_minus n S j Hj W Ej) as [W3 P3].
        rewrite (G1 S W E), !Low by (assumption || lia). specialize (Y i j Hi Hj Hij Ei Ej). lia.
      * assert (M := M2 S (conj W E)). lia.
      * destruct Z as [Z|(i & j & Hi & Hj & Hij & Ei & Ej & Z)]; [left; lia|right]. exists i, j. repeat (split; [lia || assumption|]).
        destruct (pc_both n S i j Hi Hj ltac:(lia) W Ei Ej) as [W1 P1], (pc_minus n S i Hi W Ei) as [W2 P2], (pc_minus n S j Hj W Ej) as [W3 P3].
        rewrite !Low by (assumption || lia). lia.
    + assert (F : g S = g0 S) by (apply G2; out). destruct (B S W ltac:(lia)) as (X1 & X2 & X3 & X4). rewrite F. split; [exact X1|]. split; [|split; [lia|]].
      * intros i j Hi Hj Hij Ei Ej. destruct (pc_both n S i j Hi Hj ltac:(lia) W Ei Ej) as [W1 P1], (pc_minus n S i Hi W Ei) as [W2 P2], (pc_minus n S j Hj W Ej) as [W3 P3].
        rewrite !Low by (assumption || lia). apply X2; assumption.
      * destruct X4 as [X4|(i & j & Hi & Hj & Hij & Ei & Ej & X4)]; [left; exact X4|right]. exists i, j. repeat (split; [lia || assumption|]).
        destruct (pc_both n S i j Hi Hj ltac:(lia) W Ei Ej) as [W1 P1], (pc_minus n S i Hi W Ei) as [W2 P2], (pc_minus n S j Hj W Ej) as [W3 P3].
        rewrite !Low by (assumption || lia). exact X4.
  - lia.
  - destruct M3 as [M3|(S & [W E] & M3)].
    + rewrite M3. destruct D as [D|(S & W & D)]; [left; exact D|]. destruct (Z.eq_dec (pc S) (k + 1)) as [E|N].
      * assert (g0 S = f S) by (apply A; out). left. lia.
      * right. exists S. split; [exact W|]. rewrite G2 by out. exact D.
    + right. exists S. split; [exact W|]. rewrite (G1 S W E). assert (g0 S = f S) by (apply A; out). lia.
Qed.
Lemma lower_levels_ok z n f m k g d : 0 <= n < 32 -> 0 <= k -> k + Z.of_nat m = n -> lowered n k f g d ->
  exists g' d', lower_levels z false n (zseq (k + 1) m) (g, d) = Done (g', d') /\ lowered n n f g' d'.
Proof.
  intros Hn. revert k g d. induction m as [|m IH]; intros k g d Hk Hm L.
  - exists g, d. split; [reflexivity|]. replace n with k by lia. replace k with n in L by lia. replace k with n by lia. exact L.
  - rewrite zseq_S. cbn [lower_levels fst snd]. destruct (Z.eqb_spec (k + 1) 0); [lia|]. destruct (lower_level_ok z n (k + 1) g d Hn ltac:(lia)) as (g1 & d1 & ch & E & A & B & C & _).
    rewrite E. cbn [bind andb]. apply IH; [lia|lia|]. apply (lowered_step n k f g d); try assumption; lia.
Qed.
Lemma lowered_0 n f : 0 <= n -> lowered n 0 f f 0.
Proof.
  intros Hn. split; [reflexivity|]. split; [|split; [lia|left; reflexivity]]. intros S W P. assert (S = 0) by (apply pc_zero; [apply W|assert (X := pc_nonneg S); lia]). subst S.
  split; [lia|]. split; [intros i j _ _ _ E; rewrite Z.bits_0 in E; discriminate|]. split; [lia|left; reflexivity].
Qed.
Lemma lowered_pc n K f g d : lowered n K f g d -> n <= K -> 0 <= n ->
  contained n g f /\ below n g f /\ submodular n g /\ (forall S, within n S -> f S - g S <= d) /\ 0 <= d /\ (d = 0 \/ exists S, within n S /\ d = f S - g S).
Proof.
  intros (A & B & C & D) HK Hn. assert (P : forall S, within n S -> pc S <= K) by (intros S W; assert (X := pc_bound n S Hn W); lia).
  split; [intros S W; apply A; tauto|]. split; [intros S W; apply (B S W (P S W))|]. split; [apply local_global; [assumption|]; apply pairs_local; [assumption|]; intros S W; apply (B S W (P S W))|].
  split; [intros S W; apply (B S W (P S W))|]. auto.
Qed.
Lemma lower_bound_ok z n f : 0 <= n < 32 -> exists g d, lower_bound z n f false = Done (g, d) /\ lowered n n f g d.
Proof.
  intros Hn. unfold lower_bound, zrange. apply (lower_levels_ok z n f (Z.to_nat n) 0 f 0); [assumption|lia|lia|]. apply lowered_0. lia.
Qed.
(* a table that is submodular is kept *)
Lemma lowered_kept n f g d : 0 <= n -> lowered n n f g d -> submodular n f -> same n g f /\ d = 0.
Proof.
  intros Hn (A & B & C & D) Sub. assert (Sub' := proj2 (pairs_local n f Hn) (proj2 (local_global n f Hn) Sub)). clear Sub. rename Sub' into Sub.
  assert (G : forall k : nat, forall S, within n S -> pc S < Z.of_nat k -> g S = f S).
  { induction k as [|k IH]; intros S W P; [assert (X := pc_nonneg S); lia|]. destruct (B S W ltac:(assert (X := pc_bound n S Hn W); lia)) as (X1 & X2 & X3 & [X4|(i & j & Hi & Hj & Hij & Ei & Ej & X4)]); [exact X4|].
    destruct (pc_both n S i j Hi Hj ltac:(lia) W Ei Ej) as [W1 P1], (pc_minus n S i Hi W Ei) as [W2 P2], (pc_minus n S j Hj W Ej) as [W3 P3].
    rewrite (IH (both S i j)), (IH (minus S i)), (IH (minus S j)) in X4 by (assumption || lia). specialize (Sub S W i j Hi Hj Hij Ei Ej). lia. }
  assert (E : same n g f) by (intros S W; apply (G (Z.to_nat (n + 1)) S W); assert (X := pc_bound n S Hn W); lia).
  split; [exact E|]. destruct D as [D|(S & W & D)]; [exact D|]. rewrite (E S W) in D. lia.
Qed.
(* stopping early *)
Lemma lower_early z n f : 1 <= n < 32 -> exists g, lower_bound z n f true = Done (g, 0) /\ forall S, g S = f S.
Proof.
  intros Hn. unfold lower_bound, zrange. destruct (Z.to_nat n) as [|m] eqn:En; [lia|]. rewrite zseq_S. cbn [lower_levels fst snd]. cbn [Z.eqb].
  destruct (lower_level_ok z n 1 f 0 ltac:(lia) ltac:(lia)) as (g & d & ch & E & A & B & (C1 & C2 & C3) & F). rewrite E. cbn [bind andb].
  assert (Z0 : forall S, within n S -> pc S = 1 -> subtract_from n f S = 0).
  { intros S W P. destruct (subtract_ok n f S ltac:(lia)) as (_ & _ & [X|(i & j & Hi & Hj & Hij & Ei & Ej & _)]); [exact X|exfalso].
    destruct (pc_both n S i j Hi Hj ltac:(lia) W Ei Ej) as [_ Y]. assert (Q := pc_nonneg (both S i j)). lia. }
  assert (ch = false). { destruct ch; [|reflexivity]. destruct (proj1 F eq_refl) as (S & W & P & X). rewrite Z0 in X by assumption. lia. }
  assert (d = 0). { destruct C3 as [X|(S & [W P] & X)]; [exact X|]. rewrite Z0 in X by assumption. exact X. }
  subst. cbn [negb]. exists g. split; [reflexivity|]. intros S. destruct (Z.eq_dec (pc S) 1) as [P|P].
  - destruct (Z_lt_le_dec S 0) as [L|L]; [apply B; unfold within; lia|]. destruct (Z_lt_le_dec S (2 ^ n)) as [L'|L']; [|apply B; unfold within; lia].
    rewrite A, Z0 by (unfold within; (lia || assumption)). lia.
  - apply B. tauto.
Qed.
