From Coq Require Import QArith Qabs List Bool Lia Lqa Qfield.
From Verif Require Import Model.Interp Spec.Interp.
Import ListNotations.
Open Scope Q_scope.

Lemma Qltb_lt : forall a b, Qltb a b = true <-> a < b.
Proof.
  intros a b. unfold Qltb. rewrite negb_true_iff. split.
  - intros H. apply Qnot_le_lt. intros C. apply Qle_bool_iff in C. congruence.
  - intros H. destruct (Qle_bool b a) eqn:E; [|reflexivity]. apply Qle_bool_iff in E. exfalso. apply (Qlt_not_le a b); assumption.
Qed.
Lemma Qltb_ge : forall a b, Qltb a b = false <-> b <= a.
Proof.
  intros a b. unfold Qltb. rewrite negb_false_iff. apply Qle_bool_iff.
Qed.

Section NN.
Context {V : Type} (dist : V -> V -> Q) (req : V).

(** after scanning the prefix [pre], the state holds the first minimiser of [pre] *)
Definition nn_inv (pre : list V) (st : option (nat * Q)) : Prop :=
  match st with
  | None => pre = []
  | Some (i, m) => exists v, nth_error pre i = Some v /\ m = dist req v /\
      (forall j w, nth_error pre j = Some w -> m <= dist req w) /\
      (forall j w, (j < i)%nat -> nth_error pre j = Some w -> m < dist req w)
  end.

Lemma nn_loop_inv : forall vals pre st, nn_inv pre st ->
  nn_inv (pre ++ vals) (nn_loop dist req vals (length pre) st).
Proof.
  induction vals as [|v r IH]; intros pre st H.
  - rewrite app_nil_r. exact H.
  - cbn [nn_loop]. replace (pre ++ v :: r) with ((pre ++ [v]) ++ r) by (rewrite <- app_assoc; reflexivity).
    replace (S (length pre)) with (length (pre ++ [v])) by (rewrite app_length; simpl; lia).
    apply IH. destruct st as [[i m]|].
    + destruct H as (u & Hu & Hm & Hmin & Hfirst).
      assert (Hi : (i < length pre)%nat) by (apply nth_error_Some; congruence).
      destruct (Qltb (dist req v) m) eqn:E.
      * apply Qltb_lt in E. exists v. split; [rewrite nth_error_app2, Nat.sub_diag by lia; reflexivity|].
        split; [reflexivity|]. split.
        -- intros j w Hj. destruct (Nat.lt_ge_cases j (length pre)).
           ++ rewrite nth_error_app1 in Hj by lia. specialize (Hmin j w Hj). lra.
           ++ rewrite nth_error_app2 in Hj by lia. destruct (j - length pre)%nat as [|k]; simpl in Hj.
              ** injection Hj as <-. lra.
              ** destruct k; discriminate.
        -- intros j w Hl Hj. rewrite nth_error_app1 in Hj by lia. specialize (Hmin j w Hj). lra.
      * apply Qltb_ge in E. exists u. split; [rewrite nth_error_app1 by lia; exact Hu|].
        split; [exact Hm|]. split.
        -- intros j w Hj. destruct (Nat.lt_ge_cases j (length pre)).
           ++ rewrite nth_error_app1 in Hj by lia. exact (Hmin j w Hj).
           ++ rewrite nth_error_app2 in Hj by lia. destruct (j - length pre)%nat as [|k]; simpl in Hj.
              ** injection Hj as <-. exact E.
              ** destruct k; discriminate.
        -- intros j w Hl Hj. rewrite nth_error_app1 in Hj by lia. exact (Hfirst j w Hl Hj).
    + simpl in H. subst pre. simpl. exists v. repeat split.
      * intros j w Hj. destruct j as [|[|j]]; simpl in Hj; try discriminate. injection Hj as <-. lra.
      * intros j w Hl. lia.
Qed.

Lemma find_nn_first : forall vals i, find_nn_index dist req vals = Some i -> first_nearest dist req vals i.
Proof.
  intros vals i H. unfold find_nn_index in H.
  pose proof (nn_loop_inv vals [] None eq_refl) as Hinv. simpl in Hinv.
  destruct (nn_loop dist req vals 0 None) as [[k m]|]; [|discriminate]. injection H as <-.
  destruct Hinv as (v & Hv & -> & H1 & H2). exists v. auto.
Qed.

Lemma find_nn_none : forall vals, find_nn_index dist req vals = None <-> vals = [].
Proof.
  intros vals. unfold find_nn_index. pose proof (nn_loop_inv vals [] None eq_refl) as Hinv. simpl in Hinv.
  destruct (nn_loop dist req vals 0 None) as [[k m]|] eqn:E.
  - split; [discriminate|]. intros ->. simpl in E. discriminate.
  - split; auto.
Qed.
End NN.

(** ** interp1 *)
Lemma slopes_length : forall n xs ys t, (n <= length xs)%nat -> (n <= length ys)%nat -> length (slopes n xs ys t) = n.
Proof.
  induction n as [|n IH]; intros xs ys t H1 H2; [reflexivity|].
  destruct xs as [|x xr]; [simpl in H1; lia|]. destruct ys as [|y yr]; [simpl in H2; lia|].
  cbn [slopes length]. rewrite IH by (simpl in *; lia). reflexivity.
Qed.

(** the line stored for knot i passes through knot i *)
Lemma slopes_through : forall n xs ys t i s o, nth_error (slopes n xs ys t) i = Some (s, o) ->
  exists x y, nth_error xs i = Some x /\ nth_error ys i = Some y /\ s * x + o == y.
Proof.
  induction n as [|n IH]; intros xs ys t i s o H; [destruct i; discriminate|].
  destruct xs as [|x xr]; [destruct i; discriminate|]. destruct ys as [|y yr]; [destruct i; discriminate|].
  cbn [slopes] in H. destruct i as [|i].
  - cbn [nth_error] in H. injection H as <- <-. exists x, y. repeat split. ring.
  - cbn [nth_error] in H |- *. eapply IH. exact H.
Qed.

(** slope of an inner knot: chord to the next knot *)
Lemma slopes_chord : forall n xs ys t i s o, nth_error (slopes n xs ys t) i = Some (s, o) -> (S i < n)%nat ->
  (n <= length xs)%nat -> (n <= length ys)%nat ->
  exists x x2 y y2, nth_error xs i = Some x /\ nth_error xs (S i) = Some x2 /\
    nth_error ys i = Some y /\ nth_error ys (S i) = Some y2 /\ s = (y2 - y) / (x2 - x).
Proof.
  induction n as [|n IH]; intros xs ys t i s o H Hi Hx Hy; [lia|].
  destruct xs as [|x xr]; [simpl in Hx; lia|]. destruct ys as [|y yr]; [simpl in Hy; lia|].
  cbn [slopes] in H. destruct i as [|i].
  - cbn [nth_error] in H. destruct n as [|n]; [lia|]. destruct xr as [|x2 xr]; [simpl in Hx; lia|].
    destruct yr as [|y2 yr]; [simpl in Hy; lia|]. injection H as <- _. exists x, x2, y, y2. repeat split.
  - cbn [nth_error] in H |- *. simpl in Hx, Hy. eapply IH; [exact H|lia|lia|lia].
Qed.

Lemma increasing_lt : forall xs i j a b, increasing xs -> (i < j)%nat ->
  nth_error xs i = Some a -> nth_error xs j = Some b -> a < b.
Proof.
  induction xs as [|x r IH]; intros i j a b Hs Hij Hi Hj; [destruct i; discriminate|].
  destruct j as [|j]; [lia|]. cbn [nth_error] in Hj.
  destruct i as [|i].
  - cbn [nth_error] in Hi. injection Hi as <-. destruct r as [|y r]; [destruct j; discriminate|].
    destruct Hs as [Hxy Hs]. destruct j as [|j]; [simpl in Hj; injection Hj as <-; exact Hxy|].
    assert (y < b) by (apply (IH O (S j) y b Hs ltac:(lia) eq_refl Hj)). lra.
  - cbn [nth_error] in Hi. destruct r as [|y r]; [destruct i; discriminate|]. destruct Hs as [_ Hs].
    apply (IH i j a b Hs ltac:(lia) Hi Hj).
Qed.

Lemma nn_at_knot : forall xs i x, increasing xs -> nth_error xs i = Some x -> find_nn_index L1q x xs = Some i.
Proof.
  intros xs i x Hs Hi. destruct (find_nn_index L1q x xs) as [k|] eqn:E.
  - destruct (find_nn_first _ _ _ _ E) as (v & Hv & Hmin & _).
    specialize (Hmin i x Hi). unfold L1q in Hmin.
    assert (Qabs (x - x) == 0) by (rewrite Qabs_pos; lra). 
    assert (Hvx : v == x).
    { pose proof (Qabs_nonneg (x - v)). apply Qabs_Qle_condition with (x := x - v) (y := 0) in Hmin || idtac.
      assert (Qabs (x - v) <= 0) by lra. apply Qabs_Qle_condition in H1. lra. }
    f_equal. destruct (Nat.lt_trichotomy k i) as [Hl|[->|Hl]]; [|reflexivity|].
    + pose proof (increasing_lt xs k i v x Hs Hl Hv Hi). lra.
    + pose proof (increasing_lt xs i k x v Hs Hl Hi Hv). lra.
  - apply find_nn_none in E. subst xs. destruct i; discriminate.
Qed.

Lemma last_nth : forall (xs : list Q) d, xs <> [] -> nth_error xs (length xs - 1) = Some (last xs d).
Proof.
  intros xs d H. destruct (exists_last H) as (l & a & ->).
  rewrite last_last, app_length. simpl length.
  replace (length l + 1 - 1)%nat with (length l) by lia.
  rewrite nth_error_app2, Nat.sub_diag by lia. reflexivity.
Qed.

Lemma knot_in_range : forall xs i x, increasing xs -> nth_error xs i = Some x ->
  exists x0 r, xs = x0 :: r /\ x0 <= x /\ x <= last xs 0.
Proof.
  intros xs i x Hs Hi. destruct xs as [|x0 r]; [destruct i; discriminate|]. exists x0, r. split; [reflexivity|].
  pose proof (last_nth (x0 :: r) 0 ltac:(discriminate)) as Hl.
  assert (Hb : (i < length (x0 :: r))%nat) by (apply nth_error_Some; congruence).
  split.
  - destruct i as [|i]; [injection Hi as <-; lra|].
    pose proof (increasing_lt (x0 :: r) 0 (S i) x0 x Hs ltac:(lia) eq_refl Hi). lra.
  - destruct (Nat.eq_dec i (length (x0 :: r) - 1)) as [->|Hn].
    + rewrite Hl in Hi. injection Hi as <-. apply Qle_refl.
    + pose proof (increasing_lt _ i (length (x0 :: r) - 1) x _ Hs ltac:(lia) Hi Hl). lra.
Qed.

Lemma interp_one_knot : forall xs ys i x y, increasing xs -> length xs = length ys ->
  nth_error xs i = Some x -> nth_error ys i = Some y ->
  exists r, interp_one xs (slopes (length xs) xs ys 0) x = Ok r /\ r == y.
Proof.
  intros xs ys i x y Hs Hl Hi Hj.
  destruct (knot_in_range xs i x Hs Hi) as (x0 & r & E & H0 & H1).
  unfold interp_one. pose proof (nn_at_knot xs i x Hs Hi) as Hn. 
  assert (Hb : (i < length xs)%nat) by (apply nth_error_Some; congruence).
  destruct (nth_error (slopes (length xs) xs ys 0) i) as [[s o]|] eqn:Es.
  2: { apply nth_error_None in Es. rewrite slopes_length in Es by lia. lia. }
  exists (s * x + o). rewrite Hn, Es.
  assert (E1 : Qle_bool x0 x = true) by (apply Qle_bool_iff; exact H0).
  assert (E2 : Qle_bool x (last xs 0) = true) by (apply Qle_bool_iff; exact H1).
  rewrite E in E2 |- *. rewrite E1, E2. simpl andb. cbv iota. split; [reflexivity|].
  destruct (slopes_through _ _ _ _ _ _ _ Es) as (x' & y' & Hx' & Hy' & Heq).
  rewrite Hi in Hx'. injection Hx' as <-. rewrite Hj in Hy'. injection Hy' as <-. exact Heq.
Qed.

Lemma interp_all_knots : forall xs sl reqs outs, 
  Forall2 (fun q r => exists r', interp_one xs sl q = Ok r' /\ r' == r) reqs outs ->
  exists rs, interp_all xs sl reqs = Ok rs /\ Forall2 Qeq rs outs.
Proof.
  intros xs sl reqs outs H. induction H as [|q r reqs outs (r' & Hr & Hq) _ (rs & IH1 & IH2)].
  - exists []. split; [reflexivity|constructor].
  - exists (r' :: rs). simpl. rewrite Hr, IH1. split; [reflexivity|constructor; assumption].
Qed.

Lemma Forall2_nth : forall {A B} (P : A -> B -> Prop) (xs : list A) (ys : list B), length xs = length ys ->
  (forall i x y, nth_error xs i = Some x -> nth_error ys i = Some y -> P x y) -> Forall2 P xs ys.
Proof.
  intros A B P. induction xs as [|x r IH]; intros [|y s] Hl H; try discriminate; constructor.
  - apply (H O); reflexivity.
  - apply IH; [injection Hl; auto|]. intros i a b Ha Hb. apply (H (S i)); assumption.
Qed.

Lemma interp1_knots : forall xs ys, increasing xs -> length xs = length ys ->
  exists rs, interp1 xs ys xs = Ok rs /\ Forall2 Qeq rs ys.
Proof.
  intros xs ys Hs Hl. unfold interp1. rewrite <- Hl, Nat.min_id.
  destruct xs as [|x r]; [destruct ys; [|discriminate]; exists []; split; [reflexivity|constructor]|].
  set (xs := x :: r) in *. change (length xs) with (S (length r)). cbv iota. change (S (length r)) with (length xs).
  apply (interp_all_knots xs). apply Forall2_nth; [exact Hl|].
  intros i q y Hq Hy. apply (interp_one_knot xs ys i q y Hs Hl Hq Hy).
Qed.

(** partial correctness: when the nearest knot is the left end of the segment, the result interpolates *)
Lemma interp_left_nearest : forall xs ys i x x2 y y2 q, increasing xs -> length xs = length ys ->
  nth_error xs i = Some x -> nth_error xs (S i) = Some x2 -> nth_error ys i = Some y -> nth_error ys (S i) = Some y2 ->
  x <= q -> q <= x2 -> q - x <= x2 - q ->
  exists r, interp_one xs (slopes (length xs) xs ys 0) q = Ok r /\ on_line x y x2 y2 q r.
Proof.
  intros xs ys i x x2 y y2 q Hs Hl Hx Hx2 Hy Hy2 H1 H2 H3.
  assert (Hxx : x < x2) by (apply (increasing_lt xs i (S i) x x2 Hs ltac:(lia) Hx Hx2)).
  assert (Hn : find_nn_index L1q q xs = Some i).
  { destruct (find_nn_index L1q q xs) as [k|] eqn:E.
    - destruct (find_nn_first _ _ _ _ E) as (v & Hv & Hmin & Hfst).
      f_equal. destruct (Nat.lt_trichotomy k i) as [Hlt|[->|Hlt]]; [exfalso|reflexivity|exfalso].
      + pose proof (increasing_lt xs k i v x Hs Hlt Hv Hx). specialize (Hmin i x Hx). unfold L1q in Hmin.
        rewrite !Qabs_pos in Hmin by lra. lra.
      + specialize (Hfst i x Hlt Hx). unfold L1q in Hfst.
        assert (x2 <= v).
        { destruct (Nat.eq_dec k (S i)) as [->|?]; [rewrite Hx2 in Hv; injection Hv as <-; lra|].
          pose proof (increasing_lt xs (S i) k x2 v Hs ltac:(lia) Hx2 Hv). lra. }
        rewrite (Qabs_neg (q - v)) in Hfst by lra. rewrite (Qabs_pos (q - x)) in Hfst by lra. lra.
    - apply find_nn_none in E. subst xs. destruct i; discriminate. }
  assert (Hb : (S i < length xs)%nat) by (apply nth_error_Some; congruence).
  destruct (nth_error (slopes (length xs) xs ys 0) i) as [[s o]|] eqn:Es.
  2: { apply nth_error_None in Es. rewrite slopes_length in Es by lia. lia. }
  exists (s * q + o). unfold interp_one.
  destruct (knot_in_range xs i x Hs Hx) as (x0 & r & E & G0 & _).
  destruct (knot_in_range xs (S i) x2 Hs Hx2) as (x0' & r' & E' & _ & G1).
  rewrite Hn, Es.
  assert (E1 : Qle_bool x0 q = true) by (apply Qle_bool_iff; lra).
  assert (E2 : Qle_bool q (last xs 0) = true) by (apply Qle_bool_iff; lra).
  rewrite E in E2 |- *. rewrite E1, E2. simpl andb. cbv iota. split; [reflexivity|].
  destruct (slopes_through _ _ _ _ _ _ _ Es) as (u & v & Hu & Hv & Heq).
  rewrite Hx in Hu. injection Hu as <-. rewrite Hy in Hv. injection Hv as <-.
  destruct (slopes_chord _ _ _ _ _ _ _ Es Hb ltac:(lia) ltac:(lia)) as (a & b & c & d & A1 & A2 & A3 & A4 & Hsl).
  rewrite Hx in A1. injection A1 as <-. rewrite Hx2 in A2. injection A2 as <-.
  rewrite Hy in A3. injection A3 as <-. rewrite Hy2 in A4. injection A4 as <-.
  unfold on_line. assert (Ho : o == y - s * x) by lra. rewrite Ho, Hsl. field. lra.
Qed.

(** ** linspace *)
Lemma linspace_incl : forall a b n, (2 <= n)%nat ->
  length (linspace a b n true) = n /\
  forall i, (i < n)%nat -> exists v, nth_error (linspace a b n true) i = Some v /\
    v == a + (b - a) * (inject_Z (Z.of_nat i) / inject_Z (Z.of_nat (n - 1))).
Proof.
  intros a b n Hn. destruct n as [|[|n]]; [lia|lia|]. cbn [linspace].
  split; [rewrite map_length, seq_length; reflexivity|].
  intros i Hi. eexists. split.
  - rewrite nth_error_map. rewrite (nth_error_nth' (seq 0 (S (S n))) 0%nat) by (rewrite seq_length; lia).
    rewrite seq_nth by lia. reflexivity.
  - cbn [Nat.add]. field. intros C. unfold Qeq in C. simpl in C. lia.
Qed.

Lemma linspace_excl : forall a b n, (2 <= n)%nat ->
  length (linspace a b n false) = n /\
  forall i, (i < n)%nat -> exists v, nth_error (linspace a b n false) i = Some v /\
    v == a + (b - a) * (inject_Z (Z.of_nat (S i)) / inject_Z (Z.of_nat n)).
Proof.
  intros a b n Hn. destruct n as [|[|n]]; [lia|lia|]. cbn [linspace].
  split; [rewrite map_length, seq_length; reflexivity|].
  intros i Hi. eexists. split.
  - rewrite nth_error_map. rewrite (nth_error_nth' (seq 1 (S (S n))) 0%nat) by (rewrite seq_length; lia).
    rewrite seq_nth by lia. reflexivity.
  - cbn [Nat.add]. field. intros C. unfold Qeq in C. simpl in C. lia.
Qed.

Lemma linspace_ends : forall a b n, (2 <= n)%nat ->
  (exists v, nth_error (linspace a b n true) 0 = Some v /\ v == a) /\
  (exists v, nth_error (linspace a b n true) (n - 1) = Some v /\ v == b) /\
  forall i u v, nth_error (linspace a b n true) i = Some u -> nth_error (linspace a b n true) (S i) = Some v ->
    (v - u) * inject_Z (Z.of_nat (n - 1)) == b - a.
Proof.
  intros a b n Hn. destruct (linspace_incl a b n Hn) as [Hl Hi].
  assert (Hz : ~ inject_Z (Z.of_nat (n - 1)) == 0) by (unfold Qeq; simpl; lia).
  split; [|split].
  - destruct (Hi 0%nat ltac:(lia)) as (v & Hv & E). exists v. split; [exact Hv|]. rewrite E.
    change (inject_Z (Z.of_nat 0)) with 0. field. exact Hz.
  - destruct (Hi (n - 1)%nat ltac:(lia)) as (v & Hv & E). exists v. split; [exact Hv|]. rewrite E. field. exact Hz.
  - intros i u v Hu Hv.
    assert (Hb : (S i < n)%nat) by (rewrite <- Hl; apply nth_error_Some; congruence).
    destruct (Hi i ltac:(lia)) as (u' & Hu' & Eu). destruct (Hi (S i) Hb) as (v' & Hv' & Ev).
    rewrite Hu in Hu'. injection Hu' as <-. rewrite Hv in Hv'. injection Hv' as <-.
    rewrite Eu, Ev, Nat2Z.inj_succ. unfold Z.succ. rewrite inject_Z_plus. change (inject_Z 1) with 1. field. exact Hz.
Qed.

(** the nearest knot is the right end of the segment *)
Lemma nn_right : forall xs i x x2 q, increasing xs -> nth_error xs i = Some x -> nth_error xs (S i) = Some x2 ->
  x <= q -> q <= x2 -> x2 - q < q - x -> find_nn_index L1q q xs = Some (S i).
Proof.
  intros xs i x x2 q Hs Hx Hx2 H1 H2 H3. destruct (find_nn_index L1q q xs) as [k|] eqn:E.
  - destruct (find_nn_first _ _ _ _ E) as (v & Hv & Hmin & Hfst).
    f_equal. destruct (Nat.lt_trichotomy k (S i)) as [Hlt|[->|Hlt]]; [exfalso|reflexivity|exfalso].
    + specialize (Hmin (S i) x2 Hx2). unfold L1q in Hmin.
      assert (v <= x).
      { destruct (Nat.eq_dec k i) as [->|?]; [rewrite Hx in Hv; injection Hv as <-; apply Qle_refl|].
        pose proof (increasing_lt xs k i v x Hs ltac:(lia) Hv Hx). lra. }
      rewrite (Qabs_pos (q - v)) in Hmin by lra. rewrite (Qabs_neg (q - x2)) in Hmin by lra. lra.
    + specialize (Hfst (S i) x2 Hlt Hx2). unfold L1q in Hfst.
      pose proof (increasing_lt xs (S i) k x2 v Hs Hlt Hx2 Hv).
      rewrite (Qabs_neg (q - v)) in Hfst by lra. rewrite (Qabs_neg (q - x2)) in Hfst by lra. lra.
  - apply find_nn_none in E. subst xs. destruct i; discriminate.
Qed.

Lemma interp1_single : forall xs ys q r, xs <> [] -> length xs = length ys ->
  interp_one xs (slopes (length xs) xs ys 0) q = Ok r -> interp1 xs ys [q] = Ok [r].
Proof.
  intros xs ys q r Hne Hl H. unfold interp1. rewrite <- Hl, Nat.min_id.
  destruct (length xs) eqn:El; [destruct xs; [congruence|discriminate]|]. cbn [interp_all]. rewrite H. reflexivity.
Qed.

Lemma interp1_left_nearest : forall xs ys i x x2 y y2 q, increasing xs -> length xs = length ys ->
  nth_error xs i = Some x -> nth_error xs (S i) = Some x2 -> nth_error ys i = Some y -> nth_error ys (S i) = Some y2 ->
  x <= q -> q <= x2 -> q - x <= x2 - q ->
  exists r, interp1 xs ys [q] = Ok [r] /\ on_line x y x2 y2 q r.
Proof.
  intros xs ys i x x2 y y2 q Hs Hl Hx Hx2 Hy Hy2 H1 H2 H3.
  destruct (interp_left_nearest xs ys i x x2 y y2 q) as (r & Hr & Ho); try assumption.
  exists r. split; [|exact Ho]. apply interp1_single; try assumption. intros ->. destruct i; discriminate.
Qed.

Lemma interp1_right_nearest : forall xs ys i x x2 x3 y2 y3 q, increasing xs -> length xs = length ys ->
  nth_error xs i = Some x -> nth_error xs (S i) = Some x2 -> nth_error xs (S (S i)) = Some x3 ->
  nth_error ys (S i) = Some y2 -> nth_error ys (S (S i)) = Some y3 ->
  x <= q -> q <= x2 -> x2 - q < q - x ->
  exists r, interp1 xs ys [q] = Ok [r] /\ on_line x2 y2 x3 y3 q r.
Proof.
  intros xs ys i x x2 x3 y2 y3 q Hs Hl Hx Hx2 Hx3 Hy2 Hy3 H1 H2 H3.
  pose proof (nn_right xs i x x2 q Hs Hx Hx2 H1 H2 H3) as Hn.
  assert (Hxx : x2 < x3) by (apply (increasing_lt xs (S i) (S (S i)) x2 x3 Hs ltac:(lia) Hx2 Hx3)).
  assert (Hb : (S (S i) < length xs)%nat) by (apply nth_error_Some; congruence).
  destruct (nth_error (slopes (length xs) xs ys 0) (S i)) as [[s o]|] eqn:Es.
  2: { apply nth_error_None in Es. rewrite slopes_length in Es by lia. lia. }
  exists (s * q + o). split.
  - apply interp1_single; [intros ->; destruct i; discriminate|exact Hl|].
    unfold interp_one. destruct (knot_in_range xs i x Hs Hx) as (x0 & r & E & G0 & _).
    destruct (knot_in_range xs (S i) x2 Hs Hx2) as (x0' & r' & E' & _ & G1).
    rewrite Hn, Es.
    assert (E1 : Qle_bool x0 q = true) by (apply Qle_bool_iff; lra).
    assert (E2 : Qle_bool q (last xs 0) = true) by (apply Qle_bool_iff; lra).
    rewrite E in E2 |- *. rewrite E1, E2. reflexivity.
  - destruct (slopes_through _ _ _ _ _ _ _ Es) as (u & v & Hu & Hv & Heq).
    rewrite Hx2 in Hu. injection Hu as <-. rewrite Hy2 in Hv. injection Hv as <-.
    destruct (slopes_chord _ _ _ _ _ _ _ Es Hb ltac:(lia) ltac:(lia)) as (a & b & c & d & A1 & A2 & A3 & A4 & Hsl).
    rewrite Hx2 in A1. injection A1 as <-. rewrite Hx3 in A2. injection A2 as <-.
    rewrite Hy2 in A3. injection A3 as <-. rewrite Hy3 in A4. injection A4 as <-.
    unfold on_line. assert (Ho : o == y2 - s * x2) by lra. rewrite Ho, Hsl. field. lra.
Qed.

Lemma interp1_throws : forall x xr ys q, ys <> [] ->
  q < x \/ last (x :: xr) 0 < q -> interp1 (x :: xr) ys [q] = Throw.
Proof.
  intros x xr ys q Hy H. unfold interp1. destruct ys as [|y yr]; [congruence|].
  cbn [length Nat.min interp_all]. unfold interp_one.
  replace (Qle_bool x q && Qle_bool q (last (x :: xr) 0)) with false; [reflexivity|].
  symmetry. apply andb_false_iff. destruct H as [H|H]; [left|right].
  - destruct (Qle_bool x q) eqn:E; [|reflexivity]. apply Qle_bool_iff in E. exfalso. apply (Qlt_not_le _ _ H E).
  - destruct (Qle_bool q (last (x :: xr) 0)) eqn:E; [|reflexivity]. apply Qle_bool_iff in E. exfalso. apply (Qlt_not_le _ _ H E).
Qed.

Lemma interp1_refuted :
  exists xs ys q r, increasing xs /\ length xs = length ys /\ interp1 xs ys [q] = Ok [r] /\ ~ interpolates xs ys q r.
Proof.
  exists [0; 10; 20], [0; 10; 0], 9. eexists. repeat split; [reflexivity..|].
  intros (i & x0 & x1 & y0 & y1 & H1 & H2 & H3 & H4 & H5 & H6).
  destruct i as [|[|[|i]]]; cbn in H1, H2, H3, H4; try discriminate;
    injection H1 as <-; injection H2 as <-; injection H3 as <-; injection H4 as <-.
  - vm_compute in H6. discriminate.
  - destruct H5 as [H5 _]. vm_compute in H5. congruence.
Qed.
