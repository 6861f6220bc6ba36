From Coq Require Import ZArith List Bool Lia.
From Verif Require Import Model.CudaToggle Spec.CudaToggle.
Import ListNotations.
Open Scope Z_scope.

Definition good (d : driver) (a : algo) : Prop :=
  (use a = true -> ready a = true) /\ (if ready a then usable (devices d) (capable d) (device a) /\ info a = Some (device a) else device a = -1 /\ info a = None).
Lemma init_spec d cur id : (fst (init d cur id) = true <-> usable (devices d) (capable d) id) /\ (snd (init d cur id) = id \/ snd (init d cur id) = cur) /\ (fst (init d cur id) = true -> snd (init d cur id) = id).
Proof.
  unfold init, usable. destruct (Z.ltb_spec 0 (devices d)), (Z.ltb_spec id (devices d)), (Z.ltb_spec id 0); cbn [negb fst snd]; try (split; [split; [discriminate|intros [? _]; lia]|split; [right; reflexivity|discriminate]]).
  destruct (capable d id); cbn [negb fst snd].
  - split; [split; [intros _; split; [lia|reflexivity]|reflexivity]|]. split; [left; reflexivity|reflexivity].
  - split; [split; [discriminate|intros [_ X]; discriminate X]|]. split; [left; reflexivity|discriminate].
Qed.
Lemma try_good d cur id : good d (fst (try_init d cur id)).
Proof.
  unfold try_init. destruct (init_spec d cur id) as (A & _ & C). destruct (init d cur id) as [ok cur']. cbn [fst snd] in *. destruct ok; cbn [fst]; unfold good; cbn [use ready device info]; [|split; [discriminate|split; reflexivity]]. split; [reflexivity|]. split; [apply A; reflexivity|]. rewrite C by reflexivity. reflexivity.
Qed.
Lemma construct_good d cur b id : good d (fst (construct d cur b id)).
Proof. unfold construct. destruct b; [apply try_good|]. unfold good. cbn. split; [discriminate|split; reflexivity]. Qed.
Lemma enable_good d a b a' : good d a -> enable a b = Some a' -> good d a'.
Proof.
  intros [A B] E. unfold enable in E. destruct b, (use a) eqn:U; cbn [andb negb] in E.
  - injection E as <-. split; [intros _; apply A; reflexivity|exact B].
  - destruct (ready a) eqn:R; [|discriminate]. injection E as <-. unfold good. cbn [use ready device info]. split; [reflexivity|exact B].
  - injection E as <-. unfold good. cbn [use ready device info]. split; [discriminate|exact B].
  - injection E as <-. split; [rewrite U; discriminate|exact B].
Qed.
Lemma put_forall (P : algo -> Prop) a : forall l k, P a -> Forall P l -> Forall P (put k a l).
Proof. induction l as [|b l IH]; intros [|k] A F; cbn [put]; try constructor; inversion F; subst; auto. Qed.
Lemma step_good d w c : Forall (good d) (algos w) -> Forall (good d) (algos (step d w c)).
Proof.
  intros F. destruct c as [b id|k id|k b]; cbn [step].
  - assert (G := construct_good d (current w) b id). destruct (construct d (current w) b id) as [a cur]. cbn [algos fst] in *. apply Forall_app. auto.
  - destruct (nth_error (algos w) k); [|exact F]. assert (G := try_good d (current w) id). destruct (try_init d (current w) id) as [a' cur]. cbn [algos fst] in *. apply put_forall; assumption.
  - destruct (nth_error (algos w) k) as [a|] eqn:N; [|exact F]. destruct (enable a b) as [a'|] eqn:E; [|exact F]. cbn [algos]. apply put_forall; [|exact F]. apply (enable_good d a b a'); [|exact E]. rewrite Forall_forall in F. apply F. exact (nth_error_In _ _ N).
Qed.
Lemma run_invariant d (P : world -> Prop) : forall cs, P {| current := 0; algos := [] |} -> (forall w c, In c cs -> P w -> P (step d w c)) -> P (run d cs).
Proof.
  unfold run. intros cs. generalize {| current := 0; algos := [] |}. induction cs as [|c cs IH]; intros w W S; cbn [fold_left]; [exact W|]. apply IH; [apply S; [left; reflexivity|exact W]|]. intros w' c' I. apply S. right. exact I.
Qed.
Lemma run_good d cs : Forall (good d) (algos (run d cs)).
Proof. apply (run_invariant d (fun w => Forall (good d) (algos w))); [constructor|]. intros w c _. apply step_good. Qed.
(* programs that use one device only *)
Definition only (id : Z) (c : call) : Prop := match c with New _ i => i = id | Init _ i => i = id | Enable _ _ => True end.
Definition placed (id cur : Z) (a : algo) : Prop := ready a = true -> device a = id /\ cur = id.
Lemma try_placed d cur id : placed id (snd (try_init d cur id)) (fst (try_init d cur id)) /\ (snd (try_init d cur id) = id \/ snd (try_init d cur id) = cur).
Proof.
  unfold try_init. destruct (init_spec d cur id) as (_ & B & C). destruct (init d cur id) as [ok cur']. cbn [fst snd] in *. destruct ok; cbn [fst snd]; (split; [|exact B]); unfold placed; cbn [ready device]; [|discriminate]. intros _. split; [reflexivity|apply C; reflexivity].
Qed.
Lemma placed_move id cur cur' a : cur' = id \/ cur' = cur -> placed id cur a -> placed id cur' a.
Proof. intros M P R. destruct (P R) as [A B]. split; [exact A|]. destruct M; congruence. Qed.
Lemma step_placed d id w c : only id c -> Forall (placed id (current w)) (algos w) -> Forall (placed id (current (step d w c))) (algos (step d w c)).
Proof.
  intros O F. destruct c as [b i|k i|k b]; cbn [step only] in *.
  - subst i. unfold construct. destruct b.
    + destruct (try_placed d (current w) id) as [A B]. destruct (try_init d (current w) id) as [a cur]. cbn [fst snd algos current] in *. apply Forall_app. split; [|constructor; [exact A|constructor]]. refine (Forall_impl _ _ F). intros x. apply placed_move. exact B.
    + cbn [algos current]. apply Forall_app. split; [exact F|]. constructor; [|constructor]. intros X. discriminate X.
  - subst i. destruct (nth_error (algos w) k); [|exact F]. destruct (try_placed d (current w) id) as [A B]. destruct (try_init d (current w) id) as [a' cur]. cbn [fst snd algos current] in *. apply put_forall; [exact A|]. refine (Forall_impl _ _ F). intros x. apply placed_move. exact B.
  - destruct (nth_error (algos w) k) as [a|] eqn:N; [|exact F]. destruct (enable a b) as [a'|] eqn:E; [|exact F]. cbn [algos current]. apply put_forall; [|exact F]. rewrite Forall_forall in F. assert (P := F a (nth_error_In _ _ N)). unfold enable in E. destruct b, (use a), (ready a) eqn:R; cbn [andb negb] in E; try discriminate; injection E as <-; unfold placed in *; cbn [ready device] in *; try rewrite R in *; auto.
Qed.
