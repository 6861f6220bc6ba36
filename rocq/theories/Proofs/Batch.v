(** Proofs for work batches. *)
From Coq Require Import ZArith List Bool Lia Permutation.
From Verif Require Import Model.Batch Spec.Batch.
Import ListNotations.
Open Scope Z_scope.

Lemma run_app s a b : run s (a ++ b) = let '(s1, o1) := run s a in let '(s2, o2) := run s1 b in (s2, o1 ++ o2).
Proof.
  revert s. induction a as [|x a IH]; intro s; cbn [app run]. { now destruct (run s b). }
  destruct (step s x) as (s1 & r). rewrite IH. destruct (run s1 a) as (s2 & o2). now destruct (run s2 b) as (s3 & o3).
Qed.
Lemma on_app b x y : on b (x ++ y) = on (on b x) y.
Proof. revert b. induction x as [|[[] []] x IH]; intro b; cbn [app on]; auto. Qed.
Lemma pushed_app b l x y : pushed b l (x ++ y) = pushed (on b x) (pushed b l x) y.
Proof. revert b l. induction x as [|[[] []] x IH]; intros b l; cbn [app on pushed]; auto. Qed.
Lemma starts_app b x y : starts b (x ++ y) = (starts b x + starts (on b x) y)%nat.
Proof. revert b. induction x as [|[[] []] x IH]; intro b; cbn [app on starts]; rewrite ?IH; lia. Qed.
Lemma stopped_app b x y : stopped b (x ++ y) = stopped b x || stopped (on b x) y.
Proof. revert b. induction x as [|[[] []] x IH]; intro b; cbn [app on stopped orb]; rewrite ?IH, ?orb_assoc; auto. Qed.
Lemma timed_app b o x y : timed b o (x ++ y) = timed (on b x) (timed b o x) y.
Proof. revert b o. induction x as [|[[] []] x IH]; intros b o; cbn [app on timed]; auto. Qed.
Lemma tried_app x y : start_tried (x ++ y) = start_tried x || start_tried y.
Proof. apply existsb_app. Qed.

Lemma insert_In i l x : In x (insert i l) <-> In x l \/ x = i.
Proof.
  unfold insert. destruct (existsb (Z.eqb i) l) eqn:E; cbn [In]; [| intuition ]. apply existsb_exists in E. destruct E as (y & A & B). apply Z.eqb_eq in B. subst y. split; [ tauto |]. intros [ ? | -> ]; assumption.
Qed.
Lemma insert_NoDup i l : NoDup l -> NoDup (insert i l).
Proof.
  intro N. unfold insert. destruct (existsb (Z.eqb i) l) eqn:E; [ exact N |]. constructor; [| exact N ]. intro I. assert (existsb (Z.eqb i) l = true); [| congruence ]. apply existsb_exists. exists i. split; [ exact I | apply Z.eqb_refl ].
Qed.
Record inv (s : st) (tr : list (act * res)) : Prop := Inv {
  i_on : processing s = on false tr; i_nodup : NoDup (packets s); i_same : forall x, In x (packets s) <-> In x (pushed false [] tr);
  i_count : if stopped false tr then processing s = false /\ told (count s) = Some (size (packets s)) /\ (fut (count s) = false -> final_count s = size (packets s)) else count s = fresh;
  i_starts : starts false tr = (if processing s || stopped false tr then 1 else 0)%nat;
  i_time : match timed false None tr with
           | Some t => processing s = false /\ time s = Chan (Some t) false /\ final_time s = t
           | None => time s = (if start_tried tr then fresh else Chan None false) /\ final_time s = 0 end;
  i_tried : processing s = true -> start_tried tr = true /\ timed false None tr = None }.
Lemma size_pushed s tr : inv s tr -> size (packets s) = different (pushed false [] tr).
Proof.
  intros H. unfold size, different. f_equal. apply Permutation_length, NoDup_Permutation; [ exact (i_nodup _ _ H) | apply NoDup_nodup |]. intro x. rewrite nodup_In. apply (i_same _ _ H).
Qed.
Lemma inv_init : inv init [].
Proof. constructor; cbn; auto; try tauto; try constructor. all: discriminate. Qed.
Lemma step_inv s tr a : inv s tr -> let '(s', r) := step s a in inv s' (tr ++ [(a, r)]).
Proof.
  intros [H1 H2 H3 H4 H5 H6 H7]. destruct a as [i| |t| | | | |now]; cbn [step].
  - destruct (processing s) eqn:P; constructor; cbn [packets count final_count time final_time processing]; rewrite ?on_app, ?pushed_app, ?starts_app, ?stopped_app, ?timed_app, ?tried_app, <- ?H1; cbn [on pushed starts stopped timed start_tried existsb fst]; rewrite ?orb_false_r, ?P; auto; try lia.
    + now apply insert_NoDup.
    + intro x. rewrite insert_In, in_app_iff, H3. cbn [In]. intuition.
    + destruct (stopped false tr); [ destruct H4; discriminate | exact H4 ].
  - destruct (processing s) eqn:P.
    + constructor; rewrite ?on_app, ?pushed_app, ?starts_app, ?stopped_app, ?timed_app, ?tried_app, <- ?H1; cbn [on pushed starts stopped timed start_tried existsb fst]; rewrite ?orb_false_r, ?orb_true_r, ?P; auto; try lia.
      * destruct (H7 eq_refl) as (A & B). rewrite A, B in *. exact H6.
      * intros _. split; [ reflexivity |]. now destruct H7.
    + unfold resetOutputCount. cbn [count packets]. unfold set_value. destruct (stopped false tr) eqn:Q.
      * destruct H4 as (_ & T & F). rewrite T. constructor; cbn [packets count final_count time final_time processing]; rewrite ?on_app, ?pushed_app, ?starts_app, ?stopped_app, ?timed_app, ?tried_app, <- ?H1; cbn [on pushed starts stopped timed start_tried existsb fst]; rewrite ?orb_false_r, ?orb_true_r, ?Q; cbn [orb]; auto; try lia; try discriminate. rewrite H5. reflexivity.
      * rewrite H4. cbn [told fresh]. constructor; cbn [packets count final_count time final_time processing]; rewrite ?on_app, ?pushed_app, ?starts_app, ?stopped_app, ?timed_app, ?tried_app, <- ?H1; cbn [on pushed starts stopped timed start_tried existsb fst]; rewrite ?orb_false_r, ?orb_true_r, ?Q; cbn [orb]; auto; try lia; try tauto; try constructor. now rewrite H5.
  - destruct (processing s) eqn:P.
    + destruct (H7 eq_refl) as (A & B). rewrite B, A in H6. destruct H6 as (H6 & _). rewrite H6. cbn [set_value told fresh fut get]. destruct (stopped false tr) eqn:Q; [ destruct H4; discriminate |]. rewrite H4. cbn [set_value told fresh fut].
      constructor; cbn [packets count final_count time final_time processing]; rewrite ?on_app, ?pushed_app, ?starts_app, ?stopped_app, ?timed_app, ?tried_app, <- ?H1; cbn [on pushed starts stopped timed start_tried existsb fst]; rewrite ?orb_false_r, ?orb_true_r, ?Q; cbn [orb told fut]; auto; try lia; try discriminate.
      * split; [ reflexivity |]. split; [ reflexivity | discriminate ].
      * rewrite H5. reflexivity.
    + constructor; rewrite ?on_app, ?pushed_app, ?starts_app, ?stopped_app, ?timed_app, ?tried_app, <- ?H1; cbn [on pushed starts stopped timed start_tried existsb fst]; rewrite ?orb_false_r, ?orb_true_r, ?P; auto; try lia; try congruence.
  - unfold resetOutputCount, set_value. destruct (stopped false tr) eqn:Q.
    + destruct H4 as (P & T & F). rewrite T. constructor; rewrite ?on_app, ?pushed_app, ?starts_app, ?stopped_app, ?timed_app, ?tried_app, <- ?H1; cbn [on pushed starts stopped timed start_tried existsb fst]; rewrite ?orb_false_r, ?orb_true_r, ?Q; auto; try lia.
    + rewrite H4. cbn [told fresh]. constructor; cbn [packets count final_count time final_time processing]; rewrite ?on_app, ?pushed_app, ?starts_app, ?stopped_app, ?timed_app, ?tried_app, <- ?H1; cbn [on pushed starts stopped timed start_tried existsb fst]; rewrite ?orb_false_r, ?orb_true_r, ?Q; cbn [orb]; auto; try lia; try tauto; try constructor.
  - constructor; rewrite ?on_app, ?pushed_app, ?starts_app, ?stopped_app, ?timed_app, ?tried_app, <- ?H1; cbn [on pushed starts stopped timed start_tried existsb fst]; rewrite ?orb_false_r, ?orb_true_r; auto; try lia.
  - unfold get. destruct (fut (count s)) eqn:F; [ destruct (told (count s)) as [v|] eqn:T |]; constructor; cbn [packets count final_count time final_time processing]; rewrite ?on_app, ?pushed_app, ?starts_app, ?stopped_app, ?timed_app, ?tried_app, <- ?H1; cbn [on pushed starts stopped timed start_tried existsb fst]; rewrite ?orb_false_r, ?orb_true_r; auto; try lia.
    + destruct (stopped false tr); [| rewrite H4 in T; discriminate ]. destruct H4 as (A & B & C). split; [ exact A |]. cbn [told fut]. split; congruence.
    + rewrite F, T. exact H4.
    + rewrite F. exact H4.
  - unfold get. destruct (fut (time s)) eqn:F; [ destruct (told (time s)) as [v|] eqn:T |]; constructor; cbn [packets count final_count time final_time processing]; rewrite ?on_app, ?pushed_app, ?starts_app, ?stopped_app, ?timed_app, ?tried_app, <- ?H1; cbn [on pushed starts stopped timed start_tried existsb fst]; rewrite ?orb_false_r, ?orb_true_r; auto; try lia.
    + destruct (timed false None tr) as [t|]; [ destruct H6 as (_ & H6 & _); rewrite H6 in F; discriminate |]. destruct H6 as (H6 & _). destruct (start_tried tr); rewrite H6 in T; discriminate.
  - constructor; rewrite ?on_app, ?pushed_app, ?starts_app, ?stopped_app, ?timed_app, ?tried_app, <- ?H1; cbn [on pushed starts stopped timed start_tried existsb fst]; rewrite ?orb_false_r, ?orb_true_r; auto; try lia.
Qed.
Lemma reach l : let '(s, tr) := run init l in inv s tr.
Proof.
  induction l as [|a l IH] using rev_ind; [ apply inv_init |]. rewrite run_app. destruct (run init l) as (s & tr). cbn [run]. pose proof (step_inv s tr a IH) as S. destruct (step s a) as (s' & o). exact S.
Qed.
