(** Proofs for the semaphore. *)
From Coq Require Import ZArith List Bool Lia.
From Verif Require Import Lib.Threads Model.Semaphore Spec.Semaphore.
Import ListNotations.
Open Scope Z_scope.

Definition asleep (w : waiter) : bool := negb (awake w).
Lemma filter_howmany {A} (f : A -> bool) l : length (filter f l) = howmany f l.
Proof. induction l as [|x l IH]; cbn [filter howmany]; [ reflexivity |]. destruct (f x); cbn [length]; lia. Qed.
Lemma notified_app a b : notified (a ++ b) = notified a + notified b.
Proof. induction a as [|x a IH]; cbn [app notified]; [ reflexivity |]. destruct x; rewrite ?IH; lia. Qed.
Lemma taken_app a b : taken (a ++ b) = taken a + taken b.
Proof. induction a as [|x a IH]; cbn [app taken]; [ reflexivity |]. destruct x as [| | |[]]; rewrite ?IH; lia. Qed.
Lemma notified_nonneg a : 0 <= notified a.
Proof. induction a as [|x a IH]; cbn [notified]; [ lia |]. destruct x; lia. Qed.
Lemma taken_nonneg a : 0 <= taken a.
Proof. induction a as [|x a IH]; cbn [taken]; [ lia |]. destruct x as [| | |[]]; lia. Qed.
Lemma run_app s a b : run s (a ++ b) = let '(s1, o1) := run s a in let '(s2, o2) := run s1 b in (s2, o1 ++ o2).
Proof.
  revert s. induction a as [|x a IH]; intro s; cbn [app run]. { now destruct (run s b). }
  destruct (step s x) as (s1 & o1). rewrite IH. destruct (run s1 a) as (s2 & o2). destruct (run s2 b) as (s3 & o3). now rewrite app_assoc.
Qed.
Lemma wake_first_spec l : howmany awake (wake_first l) = (howmany awake l + (if howmany asleep l =? 0 then 0 else 1))%nat /\ length (wake_first l) = length l.
Proof.
  induction l as [|w l (IH & IL)]; cbn [wake_first howmany length]; [ auto |]. unfold asleep at 1. destruct (awake w) eqn:E; cbn [negb].
  - cbn [howmany length]. rewrite E, IH, IL. cbn [Nat.add]. split; reflexivity.
  - cbn [howmany length wake awake]. cbn. split; lia.
Qed.
Lemma wake_one_spec l n : howmany awake (wake_one l n) = (howmany awake l + (if howmany asleep l =? 0 then 0 else 1))%nat /\ length (wake_one l n) = length l.
Proof.
  unfold wake_one. destruct (nth_error l n) as [w|] eqn:N; [| apply wake_first_spec ]. destruct (awake w) eqn:E; [ apply wake_first_spec |].
  destruct (nth_cut _ _ _ N) as (l1 & l2 & -> & _ & S & _). rewrite S, !howmany_app, !app_length, !howmany_cons. unfold asleep at 2. rewrite E. cbn [wake awake negb length]. split; [| lia ].
  destruct (Nat.eqb_spec (howmany asleep l1 + (1 + howmany asleep l2)) 0); lia.
Qed.
Lemma awake_asleep l : (howmany awake l + howmany asleep l = length l)%nat.
Proof. apply (howmany_neg awake). Qed.

Record inv (s : st) : Prop := Inv {
  i_cnt : 0 <= cnt s < 2 ^ 64;
  i_wake : howmany asleep (waiters s) <> O -> cnt s <= Z.of_nat (howmany awake (waiters s));
  i_exp : Forall (fun w => expired w = true -> timed w = true) (waiters s) }.
Lemma inv_init n : 0 <= n < 2 ^ 64 -> inv (init n).
Proof. intro. constructor; cbn; auto. intro X. now destruct X. Qed.
Lemma wake_first_exp l : Forall (fun w => expired w = true -> timed w = true) l -> Forall (fun w => expired w = true -> timed w = true) (wake_first l).
Proof. induction l as [|w l IH]; intro F; cbn [wake_first]; [ constructor |]. inversion F; subst. destruct (awake w); constructor; auto. Qed.
Lemma step_inv s a : inv s -> inv (fst (step s a)).
Proof.
  intros [C W X]. destruct a as [n|t| |k|k|k]; cbn [step].
  - pose proof (wake_one_spec (waiters s) n) as (A & B). pose proof (awake_asleep (waiters s)) as D. pose proof (awake_asleep (wake_one (waiters s) n)) as E. cbn [fst]. constructor; cbn [cnt waiters].
    + apply Z.mod_pos_bound. lia.
    + intro F. destruct (Nat.eqb_spec (howmany asleep (waiters s)) 0); [ lia |]. unfold u64. assert (G := Z.mod_le (cnt s + 1) 18446744073709551616). lia.
    + unfold wake_one. destruct (nth_error (waiters s) n) as [w|] eqn:N; [| now apply wake_first_exp ]. destruct (awake w); [ now apply wake_first_exp |].
      destruct (nth_cut _ _ _ N) as (l1 & l2 & L & _ & S & _). rewrite S. rewrite L, Forall_cut in X. rewrite Forall_cut. exact X.
  - cbn [fst]. constructor; cbn [cnt waiters]; [ exact C | |].
    + rewrite !howmany_app. cbn. intro. lia.
    + apply Forall_app. split; [ exact X |]. constructor; [ discriminate | constructor ].
  - destruct (Z.ltb_spec 0 (cnt s)); cbn [fst]; constructor; cbn [cnt waiters]; auto; lia.
  - destruct (nth_error (waiters s) k) as [w|] eqn:N; [| constructor; auto ]. destruct (awake w) eqn:E; [| constructor; auto ].
    destruct (nth_cut _ _ _ N) as (l1 & l2 & L & _ & S & R). rewrite L, Forall_cut in X. rewrite L, !howmany_app, !howmany_cons in W. unfold asleep at 2 in W. rewrite E in W. cbn [negb] in W. unfold turn.
    destruct (Z.ltb_spec 0 (cnt s)) as [P|P]; [| destruct (expired w) eqn:Y ]; cbn [fst]; constructor; cbn [cnt waiters]; rewrite ?R, ?S, ?howmany_app, ?howmany_cons; try tauto; try lia.
    apply Forall_cut. split; [ discriminate | tauto ].
  - destruct (nth_error (waiters s) k) as [w|] eqn:N; [| constructor; auto ]. destruct (timed w && negb (awake w)) eqn:E; [| constructor; auto ].
    destruct (nth_cut _ _ _ N) as (l1 & l2 & L & _ & S & R). rewrite L, Forall_cut in X. rewrite L, !howmany_app, !howmany_cons in W. unfold asleep at 2 in W. apply andb_prop in E. destruct E as (T & E). apply negb_true_iff in E. rewrite E in W. cbn [negb] in W.
    cbn [fst]; constructor; cbn [cnt waiters]; rewrite ?S, ?howmany_app, ?howmany_cons; cbn; try tauto; try lia. apply Forall_cut. tauto.
  - destruct (nth_error (waiters s) k) as [w|] eqn:N; [| constructor; auto ].
    destruct (nth_cut _ _ _ N) as (l1 & l2 & L & _ & S & R). rewrite L, Forall_cut in X. rewrite L, !howmany_app, !howmany_cons in W. unfold asleep at 2 in W.
    cbn [fst]; constructor; cbn [cnt waiters]; rewrite ?S, ?howmany_app, ?howmany_cons; cbn; try tauto; try lia. 2: apply Forall_cut; tauto. destruct (awake w); cbn [negb] in W; lia.
Qed.
Lemma run_inv l : forall s, inv s -> inv (fst (run s l)).
Proof.
  induction l as [|a l IH]; intros s H; cbn [run]; [ exact H |]. pose proof (step_inv s a H) as S. destruct (step s a) as (s1 & o1). cbn [fst] in S. specialize (IH s1 S). destruct (run s1 l). exact IH.
Qed.
Lemma step_sum s a : 0 <= cnt s < 2 ^ 64 -> let '(s', o) := step s a in (cnt s' = cnt s + notified o - taken o) \/ (cnt s = 2 ^ 64 - 1 /\ notified o = 1).
Proof.
  intro C. destruct a as [n|t| |k|k|k]; cbn [step]; try (left; cbn; lia).
  - cbn [cnt notified taken]. unfold u64. destruct (Z.eq_dec (cnt s) (2 ^ 64 - 1)) as [E|E]; [ right; auto | left ]. rewrite Z.mod_small; lia.
  - destruct (0 <? cnt s); cbn; left; lia.
  - destruct (nth_error (waiters s) k) as [w|]; [| cbn; left; lia ]. destruct (awake w); [| cbn; left; lia ]. unfold turn. destruct (0 <? cnt s); [ cbn; left; lia |]. destruct (expired w); cbn; left; lia.
  - destruct (nth_error (waiters s) k) as [w|]; [| cbn; left; lia ]. destruct (timed w && negb (awake w)); cbn; left; lia.
  - destruct (nth_error (waiters s) k) as [w|]; cbn; left; lia.
Qed.
Lemma run_sum l : forall s, inv s -> let '(s', o) := run s l in cnt s + notified o < 2 ^ 64 -> cnt s' = cnt s + notified o - taken o.
Proof.
  induction l as [|a l IH]; intros s H; cbn [run]; [ cbn; lia |]. pose proof (step_inv s a H) as S. pose proof (step_sum s a (i_cnt _ H)) as E. destruct (step s a) as (s1 & o1). cbn [fst] in S. specialize (IH s1 S). destruct (run s1 l) as (s2 & o2).
  rewrite notified_app, taken_app. pose proof (notified_nonneg o2). pose proof (notified_nonneg o1). pose proof (taken_nonneg o1). destruct E as [E|E]; lia.
Qed.
(** turns only: what is handed out *)
Lemma turn_spec s k w : nth_error (waiters s) k = Some w -> awake w = true -> let '(s', o) := step s (Turn k) in
  howmany awake (waiters s) = S (howmany awake (waiters s')) /\
  (0 < cnt s -> o = [Took] /\ S (length (waiters s')) = length (waiters s)) /\ (cnt s <= 0 -> taken o = 0 /\ (expired w = true -> o = [Timed_out])  /\ (expired w = false -> o = [] /\ waiters s' = set (waiters s) k (Waiter (timed w) false false))).
Proof.
  intros N E. cbn [step]. rewrite N, E. destruct (nth_cut _ _ _ N) as (l1 & l2 & L & _ & S & R). unfold turn.
  destruct (Z.ltb_spec 0 (cnt s)) as [P|P]; [| destruct (expired w) eqn:Y ]; cbn [waiters]; rewrite ?R, ?S, L, ?howmany_app, ?howmany_cons, ?app_length, E; cbn [awake length]; (split; [ lia |]); (split; [ intro; try lia; auto; try (split; [ reflexivity | lia ]) |]); intro; try lia; cbn [taken]; auto.
  - split; [ reflexivity |]. split; [ auto | discriminate ].
  - split; [ reflexivity |]. split; [ discriminate | auto ].
Qed.
Lemma turns_exact l : forall s, inv s -> only_turns l -> let '(s', o) := run s l in howmany awake (waiters s') = O -> taken o = Z.min (cnt s) (Z.of_nat (length (waiters s))) /\ cnt s' = cnt s - taken o /\ notified o = 0.
Proof.
  induction l as [|a l IH]; intros s H T; cbn [run].
  - intro A. pose proof (awake_asleep (waiters s)) as D. destruct H as [C W _]. cbn. destruct (length (waiters s)) eqn:Q; [ lia |]. assert (howmany asleep (waiters s) <> 0%nat) as G by lia. specialize (W G). lia.
  - inversion T as [|x y (k & ->) T']; subst. pose proof (step_inv s (Turn k) H) as S. pose proof (turn_spec s k) as R. cbn [step] in *. destruct (nth_error (waiters s) k) as [w|] eqn:N.
    2: { cbn [fst] in S. specialize (IH s H T'). destruct (run s l) as (s2 & o2). cbn [app]. exact IH. }
    destruct (awake w) eqn:E. 2: { cbn [fst] in S. specialize (IH s H T'). destruct (run s l) as (s2 & o2). cbn [app]. exact IH. }
    specialize (R w eq_refl E). assert (M : notified (snd (turn s k w)) = 0 /\ cnt (fst (turn s k w)) = cnt s - taken (snd (turn s k w))). { unfold turn. destruct (0 <? cnt s); [| destruct (expired w) ]; cbn; split; lia. }
    destruct (turn s k w) as (s1 & o1). cbn [fst snd] in *. specialize (IH s1 S T'). destruct (run s1 l) as (s2 & o2). intro A. specialize (IH A). rewrite taken_app, notified_app. destruct R as (R1 & R2 & R3). destruct M as (M1 & M2). destruct IH as (I1 & I2 & I3). pose proof (i_cnt _ H). pose proof (i_cnt _ S).
    destruct (Z_lt_le_dec 0 (cnt s)) as [P|P].
    + destruct (R2 P) as (-> & R4). cbn [taken] in *. lia.
    + destruct (R3 P) as (R4 & _). lia.
Qed.
(** a waiter overtaken for ever *)
Definition overtaken (n : nat) : list act := concat (repeat [Notify 0; Wait false; Turn 1; Turn 0] n).
Lemma overtaken_run n : run (St 0 [Waiter false false false]) (overtaken n) = (St 0 [Waiter false false false], concat (repeat [Notified; Took] n)).
Proof. induction n as [|n IH]; [ reflexivity |]. unfold overtaken in *. cbn [repeat concat]. rewrite run_app. change (run (St 0 [Waiter false false false]) [Notify 0; Wait false; Turn 1; Turn 0]) with (St 0 [Waiter false false false], [Notified; Took]). cbv iota beta. now rewrite IH. Qed.
Lemma overtaken_taken n : taken (concat (repeat [Notified; Took] n)) = Z.of_nat n /\ notified (concat (repeat [Notified; Took] n)) = Z.of_nat n.
Proof. induction n as [|n (A & B)]; [ auto |]. cbn [repeat concat]. rewrite taken_app, notified_app, A, B. cbn [taken notified]. lia. Qed.
