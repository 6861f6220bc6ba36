From Coq Require Import ZArith Reals List Bool Lia Lra.
From Verif Require Import Model.Kernels.
Import ListNotations.
Open Scope Z_scope.

Lemma addr_eqb_true a b : addr_eqb a b = true <-> a = b.
Proof. destruct a, b. unfold addr_eqb. cbn [fst snd]. rewrite andb_true_iff, !Z.eqb_eq. split; [ intros [-> ->]; reflexivity | intro H; injection H; auto ]. Qed.
Lemma addr_eqb_false a b : addr_eqb a b = false <-> a <> b.
Proof. rewrite <- addr_eqb_true. destruct (addr_eqb a b); split; congruence. Qed.
Lemma addr_dec (a b : addr) : {a = b} + {a <> b}.
Proof. repeat decide equality. Qed.
Lemma set_same m a v : set m a v a = v.
Proof. unfold set. now rewrite (proj2 (addr_eqb_true a a) eq_refl). Qed.
Lemma set_other m a v b : b <> a -> set m a v b = m b.
Proof. intro H. unfold set. now rewrite (proj2 (addr_eqb_false b a) H). Qed.

Definition reads1 (i : instr) : list addr := match i with Load a | Add a | Mul a | Atomic a _ => [a] | _ => [] end.
Definition writes1 (i : instr) : list addr := match i with Store a | Atomic a _ => [a] | _ => [] end.
Definition reads (p : list instr) : list addr := flat_map reads1 p.
Definition writes (p : list instr) : list addr := flat_map writes1 p.
(* a thread on its own *)
Definition alone (p : list instr) (m : memory) (r : R) : memory * R := fold_left (fun s i => exec i (fst s) (snd s)) p (m, r).
Lemma alone_snoc p i m r : alone (p ++ [i]) m r = exec i (fst (alone p m r)) (snd (alone p m r)).
Proof. unfold alone. now rewrite fold_left_app. Qed.
Lemma alone_app p q m r : alone (p ++ q) m r = alone q (fst (alone p m r)) (snd (alone p m r)).
Proof. unfold alone. rewrite fold_left_app. now destruct (fold_left _ p _). Qed.
Lemma alone_cons i p m r : alone (i :: p) m r = alone p (fst (exec i m r)) (snd (exec i m r)).
Proof. unfold alone. cbn [fold_left fst snd]. now destruct (exec i m r). Qed.
Lemma exec_keep i m r a : ~ In a (writes1 i) -> fst (exec i m r) a = m a.
Proof. destruct i; cbn; auto; intro H; apply set_other; intro E; apply H; now left. Qed.
Lemma alone_keep p : forall m r a, ~ In a (writes p) -> fst (alone p m r) a = m a.
Proof.
  induction p as [|i p IH]; intros m r a H; [ reflexivity |]. rewrite alone_cons. cbn in H. rewrite in_app_iff in H. rewrite IH by tauto. apply exec_keep. tauto.
Qed.
(* executing depends on the memory at the addresses that are read only *)
Lemma exec_reg i m1 m2 r : (forall a, In a (reads1 i) -> m1 a = m2 a) -> snd (exec i m1 r) = snd (exec i m2 r).
Proof. destruct i; cbn; intro H; auto; now rewrite H by auto. Qed.

Section Free.
Context (n : nat) (p : program).
(* no thread writes what another one reads or writes *)
Definition race_free : Prop := forall t u a, (t < n)%nat -> (u < n)%nat -> t <> u -> In a (writes (p t)) -> ~ In a (reads (p u) ++ writes (p u)).
Definition untouched (a : addr) : Prop := forall t, (t < n)%nat -> ~ In a (writes (p t)).
Definition invariant (m : memory) (s : memory * threads) : Prop :=
  (forall t, (t < n)%nat -> exists d, p t = d ++ snd (snd s t) /\ fst (snd s t) = snd (alone d m 0%R) /\ forall a, In a (writes (p t)) -> fst s a = fst (alone d m 0%R) a) /\
  (forall t, (n <= t)%nat -> snd (snd s t) = []) /\
  (forall a, untouched a -> fst s a = m a).
Lemma invariant_start m : invariant m (m, start n p).
Proof.
  split; [| split ].
  - intros t H. exists []. unfold start. cbn [fst snd]. rewrite (proj2 (Nat.ltb_lt _ _) H). auto.
  - intros t H. unfold start. cbn [fst snd]. now rewrite (proj2 (Nat.ltb_ge _ _) H).
  - reflexivity.
Qed.
Lemma touched_dec a : {t | (t < n)%nat /\ In a (writes (p t))} + {untouched a}.
Proof.
  unfold untouched. induction n as [|k IH]; [ right; intros; lia |].
  destruct (in_dec addr_dec a (writes (p k))) as [H|H]; [ left; exists k; split; [ lia | exact H ] |].
  destruct IH as [(t & L & I) | N]; [ left; exists t; split; [ lia | exact I ] |]. right. intros t L. destruct (Nat.eq_dec t k) as [->|E]; [ exact H | apply N; lia ].
Qed.
Lemma invariant_step m s t : race_free -> invariant m s -> invariant m (step s t).
Proof.
  intros F (A & B & C). unfold step. destruct (snd (snd s t)) as [|i q] eqn:E; [ now split |].
  assert (L : (t < n)%nat) by (destruct (le_lt_dec n t) as [H|H]; [ rewrite B in E by assumption; discriminate | assumption ]).
  destruct (A t L) as (d & P & Rg & W). rewrite E in P.
  (* what the thread reads is what it would read on its own *)
  assert (Rd : forall a, In a (reads1 i) -> fst s a = fst (alone d m 0%R) a).
  { intros a H. destruct (in_dec addr_dec a (writes (p t))) as [I|I]; [ now apply W |].
    assert (Rp : In a (reads (p t))) by (rewrite P; unfold reads; rewrite flat_map_app, in_app_iff; right; cbn; rewrite in_app_iff; now left).
    rewrite C.
    - symmetry. apply alone_keep. intro J. apply I. rewrite P. unfold writes. rewrite flat_map_app, in_app_iff. now left.
    - intros u U J. destruct (Nat.eq_dec u t) as [->|N]; [ contradiction |]. apply (F u t a U L N J). rewrite in_app_iff. now left. }
  assert (Ws : forall a, In a (writes1 i) -> In a (writes (p t))).
  { intros a H. rewrite P. unfold writes. rewrite flat_map_app, in_app_iff. right. cbn. rewrite in_app_iff. now left. }
  split; [| split ]; cbn [fst snd].
  - intros u U. destruct (Nat.eqb_spec u t) as [->|N].
    + exists (d ++ [i]). rewrite <- app_assoc. split; [ exact P |]. cbn [fst snd]. rewrite alone_snoc, Rg. split; [ now apply exec_reg |].
      intros a H. destruct i; cbn [exec fst]; auto; unfold set; (destruct (addr_eqb a a0); [| now auto ]); [ reflexivity |]. now rewrite (Rd a0) by now left.
    + destruct (A u U) as (d' & P' & R' & W'). exists d'. split; [ exact P' |]. split; [ exact R' |]. intros a H. rewrite exec_keep; [ now apply W' |].
      intro J. apply (F t u a L U) ; [ congruence | now apply Ws | rewrite in_app_iff; now right ].
  - intros u U. destruct (Nat.eqb_spec u t) as [->|N]; [ lia | now apply B ].
  - intros a H. rewrite exec_keep; [ now apply C |]. intro J. apply (H t L). now apply Ws.
Qed.
Lemma invariant_run m sched : forall s, race_free -> invariant m s -> invariant m (fold_left step sched s).
Proof. induction sched as [|t sched IH]; intros s F H; [ exact H |]. cbn. apply IH; [ exact F |]. now apply invariant_step. Qed.

(* without races the schedule does not matter *)
Lemma phase_free m m' : race_free -> phase n p m m' ->
  (forall t a, (t < n)%nat -> In a (writes (p t)) -> m' a = fst (alone (p t) m 0%R) a) /\ (forall a, untouched a -> m' a = m a).
Proof.
  intros F (sched & <- & E). pose proof (invariant_run m sched _ F (invariant_start m)) as (A & B & C). split; [| exact C ].
  intros t a L I. destruct (A t L) as (d & P & _ & W). rewrite (E t), app_nil_r in P. rewrite (W a I). now rewrite P.
Qed.
End Free.

(* all threads can get to the barrier *)
Lemma run_thread t : forall q m ths, snd (ths t) = q -> exists m' ths', fold_left step (repeat t (length q)) (m, ths) = (m', ths') /\ snd (ths' t) = [] /\ forall u, u <> t -> ths' u = ths u.
Proof.
  induction q as [|i q IH]; intros m ths H; cbn [length repeat fold_left].
  - exists m, ths. auto.
  - unfold step at 2. cbn [fst snd]. rewrite H.
    destruct (IH (fst (exec i m (fst (ths t)))) (fun u => if Nat.eqb u t then (snd (exec i m (fst (ths t))), q) else ths u)) as (m' & ths' & E & D & K).
    + now rewrite Nat.eqb_refl.
    + exists m', ths'. split; [ exact E |]. split; [ exact D |]. intros u U. rewrite (K u U). now rewrite (proj2 (Nat.eqb_neq u t) U).
Qed.
Lemma run_threads : forall n m ths, (forall t, (n <= t)%nat -> snd (ths t) = []) -> exists sched m' ths', fold_left step sched (m, ths) = (m', ths') /\ forall t, snd (ths' t) = [].
Proof.
  induction n as [|k IH]; intros m ths H.
  - exists [], m, ths. split; [ reflexivity |]. intro t. apply H. lia.
  - destruct (run_thread k (snd (ths k)) m ths eq_refl) as (m1 & ths1 & E & D & K).
    destruct (IH m1 ths1) as (sched & m' & ths' & E' & D').
    + intros t T. destruct (Nat.eq_dec t k) as [->|N]; [ exact D | rewrite (K t N); apply H; lia ].
    + exists (repeat k (length (snd (ths k))) ++ sched), m', ths'. rewrite fold_left_app, E. auto.
Qed.
Lemma phase_exists n p m : exists m', phase n p m m'.
Proof.
  destruct (run_threads n m (start n p)) as (sched & m' & ths' & E & D).
  - intros t H. unfold start. cbn [fst snd]. now rewrite (proj2 (Nat.ltb_ge _ _) H).
  - exists m', sched. unfold reaches. cbv zeta. unfold memory, threads in *. rewrite E. auto.
Qed.
Lemma kernel_exists n ps : forall m, exists m', kernel n ps m m'.
Proof.
  induction ps as [|p ps IH]; intro m; [ exists m; constructor |]. destruct (phase_exists n p m) as (m1 & H). destruct (IH m1) as (m2 & K). exists m2. econstructor; eauto.
Qed.
Lemma kernel_app n ps qs : forall m m', kernel n (ps ++ qs) m m' -> exists m1, kernel n ps m m1 /\ kernel n qs m1 m'.
Proof.
  induction ps as [|p ps IH]; intros m m' H; cbn in H.
  - exists m. split; [ constructor | exact H ].
  - inversion H; subst. destruct (IH _ _ H5) as (m2 & K & L). exists m2. split; [ econstructor; eauto | exact L ].
Qed.
Lemma kernel_cons n p ps m m' : kernel n (p :: ps) m m' -> exists m1, phase n p m m1 /\ kernel n ps m1 m'.
Proof. intro K. inversion K; subst. eauto. Qed.
Lemma kernel_nil n m m' : kernel n [] m m' -> m' = m.
Proof. intro K. now inversion K. Qed.
Lemma kernel_one n p m m' : kernel n [p] m m' -> phase n p m m'.
Proof. intro K. apply kernel_cons in K. destruct K as (m1 & H & K). apply kernel_nil in K. now subst. Qed.
Lemma kernel_two n p q m m' : kernel n [p; q] m m' -> exists m1, phase n p m m1 /\ phase n q m1 m'.
Proof. intro K. apply kernel_cons in K. destruct K as (m1 & H & K). apply kernel_one in K. eauto. Qed.
