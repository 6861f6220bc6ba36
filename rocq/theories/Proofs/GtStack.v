From Coq Require Import ZArith List Bool Lia.
From Verif Require Import Model.GtStack Spec.GtStack.
Import ListNotations.
Open Scope Z_scope.

Lemma size_eqb_iff a b : size_eqb a b = true <-> a = b.
Proof. unfold size_eqb. destruct a as [a1 a2], b as [b1 b2]. cbn [fst snd]. rewrite andb_true_iff, !Z.eqb_eq. split; [intros [-> ->]; reflexivity|intros E; injection E as -> ->; split; reflexivity]. Qed.
Lemma fit_size rs sz i : fst (fit rs sz i) = sz.
Proof. unfold fit. destruct (size_eqb (fst i) sz) eqn:E; [apply size_eqb_iff in E; exact E|]. cbn [fst]. destruct sz; reflexivity. Qed.
Lemma put_in out h w k im r c : 0 <= r < h -> 0 <= c < w -> put out h w k im (r + h * k) c = im r c.
Proof. intros R C. unfold put. destruct (Z.leb_spec (h * k) (r + h * k)), (Z.ltb_spec (r + h * k) (h * k + h)), (Z.leb_spec 0 c), (Z.ltb_spec c w); try lia. cbn [andb]. f_equal. lia. Qed.
Lemma put_out out h w k im r c : r < h * k -> put out h w k im r c = out r c.
Proof. intros R. unfold put. destruct (Z.leb_spec (h * k) r); [lia|reflexivity]. Qed.
Lemma stack_spec rs sz : 0 < fst sz -> forall l k out, (forall i, In i l -> known i = true) -> exists m, stack rs sz sz k l out = Some m /\ (forall r c, r < fst sz * k -> m r c = out r c) /\
  forall j i r c, nth_error l j = Some i -> 0 <= r < fst sz -> 0 <= c < snd sz -> m (r + fst sz * (k + Z.of_nat j)) c = px (fit rs sz i) r c.
Proof.
  intros H. induction l as [|i l IH]; intros k out K; cbn [stack].
  - exists out. split; [reflexivity|]. split; [reflexivity|]. intros [|j] ? ? ? E; discriminate.
  - rewrite (K i) by (left; reflexivity). cbn [negb]. rewrite fit_size. rewrite (proj2 (size_eqb_iff sz sz) eq_refl). cbn [negb]. destruct (IH (k + 1) (put out (fst sz) (snd sz) k (px (fit rs sz i)))) as (m & E & A & B); [intros j J; apply K; right; exact J|]. exists m. split; [exact E|]. split.
    + intros r c R. rewrite A by nia. apply put_out. exact R.
    + intros [|j] i' r c N R C; cbn [nth_error] in N.
      * injection N as ->. change (Z.of_nat 0) with 0. rewrite Z.add_0_r. rewrite A by nia. apply put_in; assumption.
      * replace (k + Z.of_nat (S j)) with (k + 1 + Z.of_nat j) by lia. exact (B j i' r c N R C).
Qed.
Lemma stack_known rs sz : forall l k out m, stack rs sz sz k l out = Some m -> forall i, In i l -> known i = true.
Proof.
  induction l as [|a l IH]; intros k out m E i []; cbn [stack] in E.
  - subst a. destruct (known i); [reflexivity|discriminate].
  - destruct (known a); [|discriminate]. cbn [negb] in E. destruct (negb _) in E; [discriminate|]. exact (IH _ _ _ E i H).
Qed.
(* whole parts of multiples *)
Lemma scaled_multiple s a n : 0 < den s -> 0 <= a -> 0 <= num s -> 0 <= n -> (scaled s a * n = scaled s (a * n) <-> n * (a * num s mod den s) < den s).
Proof.
  intros D A P N. unfold scaled. replace (a * n * num s) with (a * num s * n) by ring. set (x := a * num s). assert (E := Z.div_mod x (den s) ltac:(lia)). assert (M := Z.mod_pos_bound x (den s) D). set (q := x / den s) in *. set (t := x mod den s) in *.
  replace (x * n) with (t * n + (q * n) * den s) by (rewrite E; ring). rewrite Z.div_add by lia. assert (T : 0 <= t * n) by nia. split.
  - intros H. assert (Z0 : t * n / den s = 0) by lia. destruct (Z_lt_ge_dec (t * n) (den s)) as [L|L]; [lia|]. assert (0 < t * n / den s) by (apply Z.div_str_pos; lia). lia.
  - intros H. rewrite (Z.div_small (t * n)) by lia. lia.
Qed.

Lemma last_name_acc : forall s acc, (exists a c n, s = a ++ c :: n /\ separator c /\ (forall x, In x n -> ~ separator x) /\ last_name acc s = n) \/ ((forall x, In x s -> ~ separator x) /\ last_name acc s = acc).
Proof.
  induction s as [|c s IH]; intros acc; cbn [last_name]; [right; split; [intros ? []|reflexivity]|].
  destruct ((c =? 47) || (c =? 92)) eqn:S.
  - assert (SC : separator c) by (unfold separator; rewrite orb_true_iff, !Z.eqb_eq in S; exact S). left. destruct (IH s) as [(a & c' & n & E & S' & N & L)|[N L]].
    + exists (c :: a), c', n. rewrite E at 1. split; [reflexivity|]. auto.
    + exists [], c, s. split; [reflexivity|]. auto.
  - assert (SC : ~ separator c) by (unfold separator; rewrite orb_false_iff, !Z.eqb_neq in S; tauto). destruct (IH acc) as [(a & c' & n & E & S' & N & L)|[N L]].
    + left. exists (c :: a), c', n. rewrite E at 1. split; [reflexivity|]. auto.
    + right. split; [|exact L]. intros x [<-|X]; [exact SC|exact (N x X)].
Qed.
Lemma last_name_spec s : is_name s (last_name s s).
Proof.
  destruct (last_name_acc s s) as [(a & c & n & E & S & N & L)|[N L]]; rewrite L; split; auto. right. exists a, c. auto.
Qed.
Lemma prefix_iff d : forall s, prefix d s = true <-> exists b, s = d ++ b.
Proof.
  induction d as [|a d IH]; intros s; cbn [prefix]; [split; [intros _; exists s; reflexivity|reflexivity]|]. destruct s as [|b s]; [split; [discriminate|intros [x X]; discriminate]|]. rewrite andb_true_iff, Z.eqb_eq, IH. split.
  - intros [-> [x ->]]. exists x. reflexivity.
  - intros [x X]. injection X as -> ->. split; [reflexivity|exists x; reflexivity].
Qed.
Lemma contains_iff d : forall s, contains s d = true <-> part_of d s.
Proof.
  induction s as [|c s IH]; cbn [contains]; rewrite orb_true_iff, prefix_iff.
  - split; [intros [[b E]|E]; [exists [], b; exact E|discriminate]|]. intros (a & b & E). destruct a; [|discriminate]. left. exists b. exact E.
  - rewrite IH. split.
    + intros [[b E]|(a & b & ->)]; [exists [], b; exact E|exists (c :: a), b; reflexivity].
    + intros (a & b & E). destruct a as [|x a]; [left; exists b; exact E|]. injection E as -> ->. right. exists a, b. reflexivity.
Qed.
