(** Proofs for the worker pool. *)
From Coq Require Import ZArith List Bool Lia Permutation.
From Verif Require Import Lib.Threads Model.WorkerPool Spec.WorkerPool.
Import ListNotations.
Open Scope Z_scope.

Ltac walk o := induction o as [|x o IH]; intros; [ reflexivity | destruct x; cbn [app queued begun finished broken running]; rewrite ?IH; reflexivity ].
Lemma queued_app a b : queued (a ++ b) = queued a ++ queued b. Proof. walk a. Qed.
Lemma begun_app a b : begun (a ++ b) = begun a ++ begun b. Proof. walk a. Qed.
Lemma finished_app a b : finished (a ++ b) = finished a ++ finished b. Proof. walk a. Qed.
Lemma broken_app a b : broken (a ++ b) = broken a ++ broken b. Proof. walk a. Qed.
Lemma running_app a b : running (a ++ b) = running a ++ running b. Proof. walk a. Qed.
Lemma broken_map l : queued (map Broken l ++ [Destroyed]) = [] /\ begun (map Broken l ++ [Destroyed]) = [] /\ finished (map Broken l ++ [Destroyed]) = [] /\ broken (map Broken l ++ [Destroyed]) = l.
Proof. induction l as [|x l (A & B & C & D)]; [ auto |]. cbn [map app queued begun finished broken]. rewrite D. auto. Qed.
Lemma run_app s a b : run s (a ++ b) = let '(s1, o1) := run s a in let '(s2, o2) := run s1 b in (s2, o1 ++ o2).
Proof.
  revert s. induction a as [|x a IH]; intro s; cbn [app run]. { now destruct (run s b). }
  destruct (step s x) as (s1 & o1). rewrite IH. destruct (run s1 a) as (s2 & o2). destruct (run s2 b) as (s3 & o3). now rewrite app_assoc.
Qed.
Definition asleep (w : wpc) : bool := match w with Asleep => true | _ => false end.
Definition ready (w : wpc) : bool := match w with Ready => true | _ => false end.
Definition busy (w : wpc) : bool := match w with Running _ => true | _ => false end.
Definition pushed (c : call) : bool := match c_phase c with Pushed => true | _ => false end.

Lemma wake_first_cases l : (wake_first l = l /\ howmany asleep l = O) \/ exists l1 l2, l = l1 ++ Asleep :: l2 /\ wake_first l = l1 ++ Ready :: l2.
Proof.
  induction l as [|w l IH]; cbn [wake_first howmany]; [ auto |]. destruct w; cbn [asleep].
  2: { right. exists [], l. auto. }
  all: destruct IH as [(A & B)|(l1 & l2 & A & B)]; [ left; rewrite A; auto | right; rewrite B, A; eexists (_ :: l1), l2; split; reflexivity ].
Qed.
Lemma wake_one_cases l n : (wake_one l n = l /\ howmany asleep l = O) \/ exists l1 l2, l = l1 ++ Asleep :: l2 /\ wake_one l n = l1 ++ Ready :: l2.
Proof.
  unfold wake_one. destruct (nth_error l n) as [w|] eqn:N; [| apply wake_first_cases ]. destruct w; try apply wake_first_cases.
  destruct (nth_cut _ _ _ N) as (l1 & l2 & -> & _ & S & _). right. exists l1, l2. auto.
Qed.
Lemma cut_busy l1 l2 k t : nth_error (l1 ++ Asleep :: l2) k = Some (Running t) -> nth_error (l1 ++ Ready :: l2) k = Some (Running t).
Proof.
  intro H. destruct (Nat.lt_ge_cases k (length l1)) as [L|L]; [ now rewrite nth_error_app1 in * by exact L |]. rewrite nth_error_app2 in * by exact L. destruct (k - length l1)%nat; [ discriminate | exact H ].
Qed.

Definition owned (w : list wpc) (c : call) : Prop := match c_from c with Some k => exists t, nth_error w k = Some (Running t) | None => True end.
Definition some_left (w : list wpc) : Prop := Exists (fun x => x <> Gone) w.
Record inv (n : nat) (s : st) (tr : list obs) : Prop := Inv {
  i_len : length (workers s) = n; i_calls : Forall (owned (workers s)) (calls s);
  i_ctrl : active s = true <-> ctrl s = Free; i_gone : active s = true -> Forall (fun w => w <> Gone) (workers s);
  i_sleep : howmany asleep (workers s) <> O -> active s = true /\ (length (queue s) <= howmany ready (workers s) + howmany pushed (calls s))%nat;
  i_over : ctrl s = Over -> queue s = [] /\ Forall (fun w => w = Gone) (workers s);
  i_queue : queued tr = begun tr ++ broken tr ++ queue s; i_broken : broken tr <> [] -> ctrl s = Over;
  i_run : Permutation (begun tr) (finished tr ++ running (workers s)) }.
Lemma inv_init n : inv n (init n) [].
Proof.
  constructor; cbn [workers calls active ctrl queue init queued begun broken finished app].
  - apply repeat_length.
  - constructor.
  - tauto.
  - intros _. apply Forall_forall. intros x X. apply repeat_spec in X. congruence.
  - intro. split; [ reflexivity |]. cbn. lia.
  - discriminate.
  - reflexivity.
  - intro X. now destruct X.
  - induction n; [ constructor | exact IHn ].
Qed.

Lemma forallb_gone l : forallb gone l = true <-> Forall (fun w => w = Gone) l.
Proof. rewrite forallb_forall, Forall_forall. split; intros H x X; specialize (H x X); destruct x; try reflexivity; discriminate. Qed.
Lemma running_map l : running (map wake l) = running l.
Proof. induction l as [|[] l IH]; cbn [map wake running]; congruence. Qed.
Lemma asleep_map l : howmany asleep (map wake l) = O.
Proof. induction l as [|[] l IH]; cbn [map wake howmany asleep]; auto. Qed.
Lemma busy_map l k t : nth_error l k = Some (Running t) -> nth_error (map wake l) k = Some (Running t).
Proof. intro H. apply map_nth_error with (f := wake) in H. exact H. Qed.
Lemma calling_none k cs w x : existsb (calling k) cs = false -> Forall (owned w) cs -> Forall (owned (set w k x)) cs.
Proof.
  intros E F. rewrite Forall_forall in *. intros c C. specialize (F c C). unfold owned in *. destruct (c_from c) as [j|] eqn:Q; [| exact I ]. destruct F as (t & T). exists t. rewrite nth_set_other; [ exact T |].
  intros ->. assert (X : existsb (calling j) cs = true); [| congruence ]. apply existsb_exists. exists c. split; [ exact C |]. unfold calling. rewrite Q. apply PeanoNat.Nat.eqb_refl.
Qed.
Lemma idle_owned k cs w x y : nth_error w k = Some x -> (forall t, x <> Running t) -> Forall (owned w) cs -> Forall (owned (set w k y)) cs.
Proof.
  intros N X F. rewrite Forall_forall in *. intros c C. specialize (F c C). unfold owned in *. destruct (c_from c) as [j|]; [| exact I ]. destruct F as (t & T). exists t. destruct (PeanoNat.Nat.eq_dec k j) as [->|D]; [| now rewrite nth_set_other ].
  exfalso. apply (X t). congruence.
Qed.
Lemma same n s tr : inv n s tr -> inv n s (tr ++ []).
Proof. now rewrite app_nil_r. Qed.
Lemma step_inv n s tr a : inv n s tr -> let '(s', o) := step s a in inv n s' (tr ++ o).
Proof.
  intro H. unfold step. destruct (bad s); [ now apply same |].
  destruct a as [t from|j|j m|k|k ok|k| |].
  - assert (A : (forall c, c = Call t from Checked -> owned (workers s) c) -> let '(s', o) := ask s t from in inv n s' (tr ++ o)).
    { intro O. unfold ask. destruct (active s) eqn:Act.
      - rewrite app_nil_r. destruct H. constructor; cbn [workers calls active ctrl queue]; auto.
        + apply Forall_app. split; [ assumption |]. constructor; [ now apply O | constructor ].
        + tauto.
        + intro X. destruct (i_sleep0 X) as (A & B). split; [ reflexivity |]. rewrite howmany_app. cbn. lia.
      - destruct H. constructor; auto; rewrite ?queued_app, ?begun_app, ?broken_app, ?finished_app; cbn; rewrite ?app_nil_r; auto. }
    destruct (ctrl s) eqn:C; destruct from as [k|]; try (now apply same).
    + destruct (nth_error (workers s) k) as [[| |u|]|] eqn:N; try (now apply same). destruct (existsb (calling k) (calls s)); [ now apply same |]. apply A. intros c ->. exists u. exact N.
    + apply A. intros c ->. exact I.
    + destruct (nth_error (workers s) k) as [[| |u|]|] eqn:N; try (now apply same). destruct (existsb (calling k) (calls s)); [ now apply same |]. apply A. intros c ->. exists u. exact N.
    + apply A. intros c ->. exact I.
  - destruct (nth_error (calls s) j) as [[t from []]|] eqn:N; try (now apply same). destruct (ctrl s) eqn:C.
    3: { rewrite app_nil_r. destruct H. constructor; cbn [workers calls active ctrl queue]; auto. now rewrite <- C. }
    all: destruct (nth_cut _ _ _ N) as (l1 & l2 & L & _ & S & _); destruct H; rewrite L in *; constructor; cbn [workers calls active ctrl queue]; auto; rewrite ?S; try (now rewrite <- C); try congruence.
    all: try (rewrite Forall_cut in *; destruct i_calls0; split; assumption).
    all: try (intro X; destruct (i_sleep0 X) as (A & B); split; [ exact A |]; rewrite !howmany_app, !howmany_cons, app_length in *; cbn [pushed c_phase length] in *; lia).
    all: try (rewrite queued_app, begun_app, broken_app, i_queue0; cbn [queued begun broken]; rewrite !app_nil_r, <- !app_assoc; reflexivity).
    all: try (rewrite broken_app; cbn [broken]; rewrite app_nil_r; intro X; specialize (i_broken0 X); congruence).
    all: rewrite begun_app, finished_app; cbn [begun finished]; rewrite !app_nil_r; exact i_run0.
  - destruct (nth_error (calls s) j) as [[t from []]|] eqn:N; try (now apply same). destruct (ctrl s) eqn:C.
    3: { rewrite app_nil_r. destruct H. constructor; cbn [workers calls active ctrl queue]; auto. now rewrite <- C. }
    all: destruct (nth_cut _ _ _ N) as (l1 & l2 & L & _ & _ & R); rewrite app_nil_r; destruct H; rewrite L in *; rewrite R; rewrite howmany_app, howmany_cons in i_sleep0; cbn [pushed c_phase] in i_sleep0; rewrite Forall_cut in i_calls0.
    all: destruct (wake_one_cases (workers s) m) as [(Wk & Z)|(w1 & w2 & W1 & Wk)]; rewrite Wk.
    all: try rewrite W1 in *.
    all: constructor; cbn [workers calls active ctrl queue]; auto; try (now rewrite <- C); try congruence; try tauto.
    all: try (rewrite app_length in *; cbn [length] in *; assumption).
    all: try (destruct i_calls0 as (_ & F); eapply Forall_impl; [| exact F ]; intros c O; unfold owned in *; destruct (c_from c) as [k|]; [| exact I ]; destruct O as (u & O); exists u; now apply cut_busy).
    all: try (intro X; specialize (i_gone0 X); rewrite Forall_cut in *; destruct i_gone0; split; [ discriminate | assumption ]).
    all: try (intro X; rewrite !howmany_app, !howmany_cons in *; cbn [asleep ready] in *; destruct i_sleep0 as (A & B); [ lia |]; split; [ exact A | lia ]).
    all: try (intro X; destruct (i_over0 X) as (A & B); rewrite Forall_cut in B; destruct B; discriminate).
    all: rewrite !running_app in *; cbn [running] in *; exact i_run0.
  - destruct (nth_error (workers s) k) as [[| |u|]|] eqn:N; try (now apply same). unfold turn. destruct H. pose proof (idle_owned k (calls s) (workers s) Ready) as Own. specialize (fun y => Own y N (fun t E => ltac:(discriminate E)) i_calls0).
    destruct (nth_cut _ _ _ N) as (l1 & l2 & L & _ & S & _). assert (NO : ctrl s <> Over). { intro X. destruct (i_over0 X) as (A & B). rewrite L, Forall_cut in B. destruct B; discriminate. }
    destruct (queue s) as [|t q] eqn:Q.
    + rewrite app_nil_r. destruct (active s) eqn:Act; constructor; cbn [workers calls active ctrl queue]; auto; try tauto; rewrite ?set_length; auto; rewrite ?S; try congruence.
      * intros _. rewrite L in i_gone0. specialize (i_gone0 eq_refl). rewrite Forall_cut in *. destruct i_gone0. split; [ discriminate | assumption ].
      * intros _. split; [ reflexivity | cbn [length]; lia ].
      * rewrite L in i_run0. rewrite running_app in *. exact i_run0.
      * intro X. rewrite L, !howmany_app, !howmany_cons in *. cbn [asleep ready] in *. destruct (i_sleep0 X) as (A & B). split; [ exact A | cbn; lia ].
      * rewrite L in i_run0. rewrite running_app in *. exact i_run0.
    + constructor; cbn [workers calls active ctrl queue]; auto; try tauto; rewrite ?set_length; auto; rewrite ?S; try congruence.
      * intro X. specialize (i_gone0 X). rewrite L in i_gone0. rewrite Forall_cut in *. destruct i_gone0. split; [ discriminate | assumption ].
      * intro X. rewrite L, !howmany_app, !howmany_cons in *. cbn [asleep ready length] in *. destruct (i_sleep0 X) as (A & B). split; [ exact A | lia ].
      * assert (B0 : broken tr = []). { destruct (broken tr); [ reflexivity | exfalso; apply NO, i_broken0; discriminate ]. }
        rewrite queued_app, begun_app, broken_app, i_queue0, B0. cbn [queued begun broken app]. rewrite app_nil_r, <- app_assoc. reflexivity.
      * rewrite broken_app. cbn [broken]. rewrite app_nil_r. exact i_broken0.
      * rewrite begun_app, finished_app. cbn [begun finished]. rewrite app_nil_r. rewrite L in i_run0. rewrite running_app in *. cbn [running] in *. rewrite i_run0. rewrite <- !app_assoc. apply Permutation_app_head, Permutation_app_head. apply Permutation_sym, Permutation_cons_append.
  - destruct (nth_error (workers s) k) as [[| |u|]|] eqn:N; try (now apply same). destruct (existsb (calling k) (calls s)) eqn:E; [ now apply same |]. destruct H. pose proof (calling_none k _ _ Ready E i_calls0) as Own. destruct (nth_cut _ _ _ N) as (l1 & l2 & L & _ & S & _).
    constructor; cbn [workers calls active ctrl queue]; auto; rewrite ?set_length; auto; rewrite ?S.
    + intro X. specialize (i_gone0 X). rewrite L in i_gone0. rewrite Forall_cut in *. destruct i_gone0. split; [ discriminate | assumption ].
    + intro X. rewrite L, !howmany_app, !howmany_cons in *. cbn [asleep ready length] in *. destruct (i_sleep0 X) as (A & B). split; [ exact A | lia ].
    + intro X. destruct (i_over0 X) as (A & B). rewrite L, Forall_cut in B. destruct B; discriminate.
    + rewrite queued_app, begun_app, broken_app, i_queue0. cbn [queued begun broken app]. now rewrite !app_nil_r.
    + rewrite broken_app. cbn [broken]. rewrite app_nil_r. exact i_broken0.
    + rewrite begun_app, finished_app. cbn [begun finished]. rewrite app_nil_r. rewrite L in i_run0. rewrite running_app in *. cbn [running] in *. rewrite i_run0. rewrite <- app_assoc. apply Permutation_app_head. cbn [app]. apply Permutation_sym, Permutation_middle.
  - destruct (nth_error (workers s) k) as [[| |u|]|] eqn:N; try (now apply same). rewrite app_nil_r. destruct H. pose proof (idle_owned k (calls s) (workers s) Asleep) as Own. specialize (fun y => Own y N (fun t E => ltac:(discriminate E)) i_calls0). destruct (nth_cut _ _ _ N) as (l1 & l2 & L & _ & S & _).
    constructor; cbn [workers calls active ctrl queue]; auto; rewrite ?set_length; auto; rewrite ?S.
    + intro X. specialize (i_gone0 X). rewrite L in i_gone0. rewrite Forall_cut in *. destruct i_gone0. split; [ discriminate | assumption ].
    + intro X. rewrite L, !howmany_app, !howmany_cons in *. cbn [asleep ready length] in *. destruct i_sleep0 as (A & B); [ lia |]. split; [ exact A | lia ].
    + intro X. destruct (i_over0 X) as (A & B). rewrite L, Forall_cut in B. destruct B; discriminate.
    + rewrite L in i_run0. rewrite running_app in *. exact i_run0.
  - destruct (ctrl s) eqn:C; try (now apply same). rewrite app_nil_r. destruct H. constructor; cbn [workers calls active ctrl queue]; auto; try congruence.
    + now rewrite map_length.
    + eapply Forall_impl; [| exact i_calls0 ]. intros c O. unfold owned in *. destruct (c_from c) as [k|]; [| exact I ]. destruct O as (u & O). exists u. now apply busy_map.
    + split; discriminate.
    + rewrite asleep_map. lia.
    + intro X. specialize (i_broken0 X). congruence.
    + now rewrite running_map.
  - destruct (ctrl s) eqn:C; try (now apply same). destruct (forallb gone (workers s)) eqn:G; [| now apply same ]. apply forallb_gone in G. destruct H. destruct (broken_map (queue s)) as (B1 & B2 & B3 & B4).
    assert (B0 : broken tr = []). { destruct (broken tr); [ reflexivity | exfalso ]. assert (X : ctrl s = Over) by (apply i_broken0; discriminate). congruence. }
    constructor; cbn [workers calls active ctrl queue]; auto; try congruence.
    + split; discriminate.
    + intro X. destruct (i_sleep0 X) as (A & _). apply i_ctrl0 in A. congruence.
    + rewrite queued_app, begun_app, broken_app, B1, B2, B4, B0, i_queue0, B0. cbn [app]. now rewrite !app_nil_r.
    + rewrite begun_app, finished_app, B2, B3. rewrite !app_nil_r. exact i_run0.
Qed.
Lemma reach n l : let '(s, tr) := run (init n) l in inv n s tr.
Proof.
  induction l as [|a l IH] using rev_ind; [ apply inv_init |]. rewrite run_app. destruct (run (init n) l) as (s & tr). cbn [run]. pose proof (step_inv n s tr a IH) as S. destruct (step s a) as (s' & o). rewrite app_nil_r. exact S.
Qed.

(** ** the destructor waits for other callers *)
Record calm (s : st) : Prop := Calm {
  t_ext : active s = false -> Forall (fun c => c_from c <> None) (calls s);
  t_left : queue s <> [] -> some_left (workers s); t_bad : bad s = false }.
Lemma some_left_cut l1 x l2 : x <> Gone -> some_left (l1 ++ x :: l2).
Proof. intro. apply Exists_app. right. now constructor. Qed.
Lemma some_left_active n s tr : inv n s tr -> (0 < n)%nat -> active s = true -> some_left (workers s).
Proof. intros H P A. pose proof (i_len _ _ _ H) as L. pose proof (i_gone _ _ _ H A) as G. destruct (workers s) as [|w r]; [ cbn in L; lia |]. inversion G; subst. now constructor. Qed.
Lemma step_calm n s tr a : (0 < n)%nat -> inv n s tr -> calm s -> (a = Destroy -> Forall (fun c => c_from c <> None) (calls s)) -> calm (fst (step s a)).
Proof.
  intros P H K D. unfold step. rewrite (t_bad _ K). destruct a as [t from|j|j m|k|k ok|k| |].
  - assert (A : calm (fst (ask s t from))). { unfold ask. destruct (active s) eqn:Act; [| exact K ]. destruct K. constructor; cbn [fst active calls queue workers bad]; auto; discriminate. }
    destruct (ctrl s); destruct from as [k|]; try exact K; try exact A; destruct (nth_error (workers s) k) as [[]|]; try exact K; destruct (existsb (calling k) (calls s)); try exact K; exact A.
  - destruct (nth_error (calls s) j) as [[t from []]|] eqn:N; try exact K. destruct (nth_cut _ _ _ N) as (l1 & l2 & L & _ & S & _).
    assert (E : active s = false -> from <> None). { intro A. pose proof (t_ext _ K A) as F. rewrite L, Forall_cut in F. exact (proj1 F). }
    assert (O : owned (workers s) (Call t from Checked)). { pose proof (i_calls _ _ _ H) as F. rewrite L, Forall_cut in F. exact (proj1 F). }
    assert (Lf : some_left (workers s)). { destruct (active s) eqn:A; [ eapply some_left_active; eauto |]. unfold owned in O. cbn [c_from] in O. destruct from as [k|]; [| now specialize (E eq_refl) ]. destruct O as (u & O). apply nth_error_In in O. apply Exists_exists. exists (Running u). split; [ exact O | discriminate ]. }
    destruct (ctrl s) eqn:C.
    3: { exfalso. pose proof (i_over _ _ _ H C) as (_ & G). unfold some_left in Lf. apply Exists_exists in Lf. destruct Lf as (x & X & Y). rewrite Forall_forall in G. now specialize (G x X). }
    all: destruct K; constructor; cbn [fst active calls queue workers bad]; auto; intro A; rewrite S; specialize (t_ext0 A); rewrite L in t_ext0; rewrite Forall_cut in *; cbn [c_from] in *; exact t_ext0.
  - destruct (nth_error (calls s) j) as [[t from []]|] eqn:N; try exact K. destruct (nth_cut _ _ _ N) as (l1 & l2 & L & _ & _ & R).
    assert (E : active s = false -> from <> None). { intro A. pose proof (t_ext _ K A) as F. rewrite L, Forall_cut in F. exact (proj1 F). }
    assert (O : owned (workers s) (Call t from Pushed)). { pose proof (i_calls _ _ _ H) as F. rewrite L, Forall_cut in F. exact (proj1 F). }
    destruct (ctrl s) eqn:C.
    3: { exfalso. pose proof (i_over _ _ _ H C) as (_ & G). assert (A : active s = false). { destruct (active s) eqn:A; [| reflexivity ]. apply (i_ctrl _ _ _ H) in A. congruence. } unfold owned in O. cbn [c_from] in O. destruct from as [k|]; [| now apply (E A) ]. destruct O as (u & O). apply nth_error_In in O. rewrite Forall_forall in G. now specialize (G _ O). }
    all: destruct K; constructor; cbn [fst active calls queue workers bad]; auto; try (intro A; rewrite R; specialize (t_ext0 A); rewrite L in t_ext0; rewrite Forall_cut in t_ext0; exact (proj2 t_ext0)).
    all: intro Q; destruct (wake_one_cases (workers s) m) as [(-> & _)|(w1 & w2 & W1 & Wk)]; [ auto |]; rewrite Wk; now apply some_left_cut.
  - destruct (nth_error (workers s) k) as [[| |u|]|] eqn:N; try exact K. destruct (nth_cut _ _ _ N) as (l1 & l2 & L & _ & S & _). unfold turn. destruct K. destruct (queue s); constructor; cbn [fst active calls queue workers bad]; auto; [ intro X; now destruct X |]. intros _. rewrite S. now apply some_left_cut.
  - destruct (nth_error (workers s) k) as [[| |u|]|] eqn:N; try exact K. destruct (existsb (calling k) (calls s)); [ exact K |]. destruct (nth_cut _ _ _ N) as (l1 & l2 & L & _ & S & _). destruct K. constructor; cbn [fst active calls queue workers bad]; auto. intros _. rewrite S. now apply some_left_cut.
  - destruct (nth_error (workers s) k) as [[| |u|]|] eqn:N; try exact K. destruct (nth_cut _ _ _ N) as (l1 & l2 & L & _ & S & _). destruct K. constructor; cbn [fst active calls queue workers bad]; auto. intros _. rewrite S. now apply some_left_cut.
  - destruct (ctrl s) eqn:C; try exact K. specialize (D eq_refl). destruct K. constructor; cbn [fst active calls queue workers bad]; auto. intro Q. specialize (t_left0 Q). unfold some_left in *. apply Exists_exists in t_left0. destruct t_left0 as (x & X & Y). apply Exists_exists. exists (wake x). split; [ now apply in_map |]. destruct x; cbn; congruence.
  - destruct (ctrl s) eqn:C; try exact K. destruct (forallb gone (workers s)) eqn:G; [| exact K ]. assert (A : active s = false). { destruct (active s) eqn:A; [| reflexivity ]. apply (i_ctrl _ _ _ H) in A. congruence. }
    destruct K. constructor; cbn [fst active calls queue workers bad]; auto.
Qed.
Lemma tame_app s a b : tame s (a ++ b) <-> tame s a /\ tame (fst (run s a)) b.
Proof.
  revert s. induction a as [|x a IH]; intro s; cbn [app tame run]; [ tauto |]. rewrite IH. destruct (step s x) as (s1 & o1). cbn [fst]. destruct (run s1 a) as (s2 & o2). cbn [fst]. tauto.
Qed.
Lemma reach_calm n l : (0 < n)%nat -> tame (init n) l -> calm (fst (run (init n) l)).
Proof.
  intro P. induction l as [|a l IH] using rev_ind. { intros _. constructor; cbn; auto; try discriminate. intro X. now destruct X. }
  rewrite tame_app. intros (T & T'). specialize (IH T). pose proof (reach n l) as R. rewrite run_app. destruct (run (init n) l) as (s & tr). cbn [fst tame run] in *. destruct T' as (T' & _). pose proof (step_calm n s tr a P R IH) as S. destruct (step s a) as (s' & o). cbn [fst] in *. apply S. intros ->. exact T'.
Qed.
(** ** every step of a thread that finishes what it does is one less to go *)
Definition cost_w (w : wpc) : nat := match w with Ready => 1 | Running _ => 2 | _ => 0 end.
Definition cost_c (c : call) : nat := match c_phase c with Checked => 5 | Pushed => 2 end.
Fixpoint sum {A} (f : A -> nat) (l : list A) : nat := match l with [] => 0%nat | x :: r => (f x + sum f r)%nat end.
Lemma sum_app {A} (f : A -> nat) l m : sum f (l ++ m) = (sum f l + sum f m)%nat.
Proof. induction l as [|x l IH]; cbn [app sum]; [ reflexivity |]. rewrite IH. lia. Qed.
Definition cost (s : st) : nat := (2 * length (queue s) + sum cost_w (workers s) + sum cost_c (calls s))%nat.
Lemma step_cost s a : bad s = false -> ctrl s <> Over -> working a -> does s a -> (cost (fst (step s a)) < cost s)%nat.
Proof.
  intros B O W D. unfold does in D. unfold cost. unfold step in *. rewrite B in *. destruct a as [t from|j|j m|k|k ok|k| |]; try contradiction.
  - destruct (nth_error (calls s) j) as [[t from []]|] eqn:N; try (now destruct D). destruct (nth_cut _ _ _ N) as (l1 & l2 & L & _ & S & _). destruct (ctrl s); try congruence; cbn [fst queue workers calls]; rewrite S, L, !sum_app, app_length; cbn [sum cost_c c_phase length]; lia.
  - destruct (nth_error (calls s) j) as [[t from []]|] eqn:N; try (now destruct D). destruct (nth_cut _ _ _ N) as (l1 & l2 & L & _ & _ & R).
    destruct (ctrl s); try congruence; cbn [fst queue workers calls]; rewrite R, L, !sum_app; cbn [sum cost_c c_phase length]; (destruct (wake_one_cases (workers s) m) as [(-> & _)|(w1 & w2 & -> & ->)]; [ lia |]; rewrite !sum_app; cbn [sum cost_w]; lia).
  - destruct (nth_error (workers s) k) as [[| |u|]|] eqn:N; try (now destruct D). destruct (nth_cut _ _ _ N) as (l1 & l2 & L & _ & S & _). unfold turn. destruct (queue s); cbn [fst queue workers calls]; rewrite S, L, !sum_app; cbn [sum cost_w length]; [ destruct (active s); cbn [cost_w]; lia | lia ].
  - destruct (nth_error (workers s) k) as [[| |u|]|] eqn:N; try (now destruct D). destruct (existsb (calling k) (calls s)); [ now destruct D |]. destruct (nth_cut _ _ _ N) as (l1 & l2 & L & _ & S & _). cbn [fst queue workers calls]; rewrite S, L, !sum_app; cbn [sum cost_w length]. lia.
Qed.
Lemma working_keeps s a : working a -> ctrl (fst (step s a)) = ctrl s.
Proof.
  intro W. unfold step. destruct (bad s); [ reflexivity |]. destruct a as [t from|j|j m|k|k ok|k| |]; try contradiction.
  - destruct (nth_error (calls s) j) as [[t from []]|]; try reflexivity. destruct (ctrl s) eqn:C; cbn; congruence.
  - destruct (nth_error (calls s) j) as [[t from []]|]; try reflexivity. destruct (ctrl s) eqn:C; cbn; congruence.
  - destruct (nth_error (workers s) k) as [[]|]; try reflexivity. unfold turn. now destruct (queue s).
  - destruct (nth_error (workers s) k) as [[]|]; try reflexivity. now destruct (existsb (calling k) (calls s)).
Qed.
Lemma bounded n w : (0 < n)%nat -> forall s tr, inv n s tr -> calm s -> ctrl s <> Over -> Forall working w -> does_all s w -> (length w <= cost s)%nat.
Proof.
  intro P. induction w as [|a w IH]; intros s tr H K O F D; [ cbn; lia |]. inversion F; subst. inversion D; subst. pose proof (step_cost s a (t_bad _ K) O H2 H5) as C. pose proof (step_inv n s tr a H) as S. pose proof (step_calm n s tr a P H K) as T. pose proof (working_keeps s a H2) as E.
  destruct (step s a) as (s' & o). cbn [fst] in *. assert (ctrl s' <> Over) by congruence. specialize (IH s' (tr ++ o) S). cbn [length]. enough (length w <= cost s')%nat by lia. apply IH; auto. apply T. intros ->. contradiction.
Qed.
Lemma nth_In {A} (l : list A) x : In x l -> exists k, nth_error l k = Some x.
Proof. apply In_nth_error. Qed.
Lemma resting n s tr : (0 < n)%nat -> inv n s tr -> calm s -> ctrl s <> Over -> at_rest s -> queue s = [] /\ calls s = [] /\ Forall (fun w => w = if active s then Asleep else Gone) (workers s).
Proof.
  intros P H K O R. assert (C : calls s = []).
  { destruct (calls s) as [|[t from ph] r] eqn:C; [ reflexivity | exfalso ]. destruct ph.
    - specialize (R (Push 0) I). unfold step in R. rewrite (t_bad _ K), C in R. cbn [nth_error] in R. destruct (ctrl s); congruence.
    - specialize (R (Ping 0 0) I). unfold step in R. rewrite (t_bad _ K), C in R. cbn [nth_error] in R. assert (Q : forall x, (s, @nil obs) = x -> s = fst x) by (intros x <-; reflexivity).
      destruct (ctrl s); try congruence; symmetry in R; apply Q in R; apply (f_equal calls) in R; cbn [fst calls] in R; rewrite C in R; cbn in R; apply (f_equal (@length call)) in R; cbn in R; lia. }
  assert (W : Forall (fun w => w = Asleep \/ w = Gone) (workers s)).
  { apply Forall_forall. intros x X. apply nth_In in X. destruct X as (k & N). destruct x as [| |t|]; auto; exfalso.
    - specialize (R (Turn k) I). unfold step in R. rewrite (t_bad _ K), N in R. unfold turn in R. destruct (queue s); [| discriminate ]. assert (Q := f_equal (fun x => nth_error (workers (fst x)) k) R). cbn [fst workers] in Q. rewrite (nth_set_same _ _ _ _ N), N in Q. destruct (active s); discriminate.
    - specialize (R (Finish k true) I). unfold step in R. rewrite (t_bad _ K), N, C in R. cbn [existsb] in R. discriminate. }
  assert (Rd : howmany ready (workers s) = 0%nat). { apply howmany_0. eapply Forall_impl; [| exact W ]. intros x [ -> | -> ]; reflexivity. }
  assert (G : Forall (fun w => w = if active s then Asleep else Gone) (workers s)).
  { rewrite Forall_forall in *. intros x X. destruct (active s) eqn:A.
    - pose proof (i_gone _ _ _ H A) as G. rewrite Forall_forall in G. specialize (G x X). destruct (W x X); congruence.
    - destruct (W x X) as [ -> | E ]; [| exact E ]. exfalso. assert (Z : howmany asleep (workers s) <> 0%nat). { intro Z. apply howmany_0 in Z. rewrite Forall_forall in Z. specialize (Z _ X). discriminate. } destruct (i_sleep _ _ _ H Z). congruence. }
  split; [| auto ]. destruct (queue s) as [|t q] eqn:Q; [ reflexivity | exfalso ]. assert (some_left (workers s)) as S by (apply (t_left _ K); rewrite Q; discriminate). apply Exists_exists in S. destruct S as (x & X & Y). rewrite Forall_forall in G. specialize (G x X). destruct (active s) eqn:A; [| congruence ]. subst x.
  assert (Z : howmany asleep (workers s) <> 0%nat). { intro Z. apply howmany_0 in Z. rewrite Forall_forall in Z. specialize (Z _ X). discriminate. } destruct (i_sleep _ _ _ H Z) as (_ & B). rewrite Rd, C, Q in B. cbn in B. lia.
Qed.
Lemma running_none l : Forall (fun w => w = Asleep \/ w = Gone) l -> running l = [].
Proof. induction 1 as [|x l [ -> | -> ] _ IH]; auto. Qed.
Lemma running_length l : (length (running l) <= length l)%nat.
Proof. induction l as [|[] l IH]; cbn [running length]; lia. Qed.
Lemma step_broken n s tr a : inv n s tr -> calm s -> broken (snd (step s a)) = [].
Proof.
  intros H K. unfold step. rewrite (t_bad _ K). destruct a as [t from|j|j m|k|k ok|k| |].
  - assert (A : broken (snd (ask s t from)) = []) by (unfold ask; destruct (active s); reflexivity). destruct (ctrl s); destruct from as [k|]; try reflexivity; try exact A; destruct (nth_error (workers s) k) as [[]|]; try reflexivity; destruct (existsb (calling k) (calls s)); try reflexivity; exact A.
  - destruct (nth_error (calls s) j) as [[t from []]|]; try reflexivity. destruct (ctrl s); reflexivity.
  - destruct (nth_error (calls s) j) as [[t from []]|]; try reflexivity. destruct (ctrl s); reflexivity.
  - destruct (nth_error (workers s) k) as [[]|]; try reflexivity. unfold turn. now destruct (queue s).
  - destruct (nth_error (workers s) k) as [[]|]; try reflexivity. now destruct (existsb (calling k) (calls s)).
  - destruct (nth_error (workers s) k) as [[]|]; reflexivity.
  - destruct (ctrl s); reflexivity.
  - destruct (ctrl s) eqn:C; try reflexivity. destruct (forallb gone (workers s)) eqn:G; [| reflexivity ]. apply forallb_gone in G. cbn [snd]. destruct (broken_map (queue s)) as (_ & _ & _ & ->). destruct (queue s) as [|t q] eqn:Q; [ reflexivity | exfalso ].
    assert (S : some_left (workers s)) by (apply (t_left _ K); rewrite Q; discriminate). apply Exists_exists in S. destruct S as (x & X & Y). rewrite Forall_forall in G. exact (Y (G x X)).
Qed.
Lemma reach_broken n l : (0 < n)%nat -> tame (init n) l -> broken (snd (run (init n) l)) = [].
Proof.
  intro P. induction l as [|a l IH] using rev_ind; [ reflexivity |]. rewrite tame_app. intros (T & _). specialize (IH T). pose proof (reach n l) as R. pose proof (reach_calm n l P T) as K. rewrite run_app. destruct (run (init n) l) as (s & tr). cbn [fst snd run] in *. pose proof (step_broken n s tr a R K) as S.
  destruct (step s a) as (s' & o). cbn [snd] in *. rewrite !broken_app, IH, S. reflexivity.
Qed.
Definition idle_dec (w : wpc) : {w = Asleep \/ w = Gone} + {~ (w = Asleep \/ w = Gone)}.
Proof. destruct w; auto; right; intros [X|X]; discriminate. Defined.
(** a step that does something can be found, or there is none *)
Lemma busy_or_rest n s tr : (0 < n)%nat -> inv n s tr -> calm s -> ctrl s <> Over -> at_rest s \/ exists a, working a /\ does s a.
Proof.
  intros P H K O. destruct (calls s) as [|[t from ph] r] eqn:C.
  2: { right. destruct ph.
    - exists (Push 0). split; [ exact I |]. unfold does, step. rewrite (t_bad _ K), C. cbn [nth_error]. destruct (ctrl s); congruence.
    - exists (Ping 0 0). split; [ exact I |]. unfold does, step. rewrite (t_bad _ K), C. cbn [nth_error]. intro R. assert (Q := f_equal (fun x => length (calls (fst x))) R). destruct (ctrl s); try congruence; cbn [fst calls] in Q; rewrite C in Q; cbn in Q; lia. }
  destruct (Forall_Exists_dec (fun w => w = Asleep \/ w = Gone) idle_dec (workers s)) as [W|W].
  - left. intros a A. unfold step. rewrite (t_bad _ K), C. rewrite Forall_forall in W. destruct a as [t from|j|j m|k|k ok|k| |]; try contradiction.
    + now destruct j.
    + now destruct j.
    + destruct (nth_error (workers s) k) eqn:N; [| reflexivity ]. apply nth_error_In in N. destruct (W _ N) as [ -> | -> ]; reflexivity.
    + destruct (nth_error (workers s) k) eqn:N; [| reflexivity ]. apply nth_error_In in N. destruct (W _ N) as [ -> | -> ]; reflexivity.
  - right. apply Exists_exists in W. destruct W as (x & X & Y). apply nth_In in X. destruct X as (k & N). destruct x as [| |t|]; try tauto.
    + exists (Turn k). split; [ exact I |]. unfold does, step. rewrite (t_bad _ K), N. unfold turn. destruct (queue s); [| discriminate ]. intro R. assert (Q := f_equal (fun x => nth_error (workers (fst x)) k) R). cbn [fst workers] in Q. rewrite (nth_set_same _ _ _ _ N), N in Q. destruct (active s); discriminate.
    + exists (Finish k true). split; [ exact I |]. unfold does, step. rewrite (t_bad _ K), N, C. cbn [existsb]. discriminate.
Qed.
Lemma rest_reached n : (0 < n)%nat -> forall m s tr, (cost s <= m)%nat -> inv n s tr -> calm s -> ctrl s <> Over -> exists w, Forall working w /\ at_rest (fst (run s w)) /\ ctrl (fst (run s w)) = ctrl s.
Proof.
  intro P. induction m as [|m IH]; intros s tr L H K O; (destruct (busy_or_rest n s tr P H K O) as [R|(a & W & D)]; [ exists []; split; [ constructor | auto ] |]); pose proof (step_cost s a (t_bad _ K) O W D) as C; [ lia |].
  pose proof (step_inv n s tr a H) as S. pose proof (step_calm n s tr a P H K) as T. pose proof (working_keeps s a W) as E. destruct (step s a) as (s' & o) eqn:Q. cbn [fst] in *. destruct (IH s' (tr ++ o)) as (w & A & B & B'); [ lia | exact S | apply T; intros ->; contradiction | congruence |].
  exists (a :: w). split; [ now constructor |]. cbn [run]. rewrite Q. destruct (run s' w) as (s2 & o2). cbn [fst] in *. split; [ exact B | congruence ].
Qed.
