From Coq Require Import ZArith QArith Reals List Bool Lia Lra Arith.
From Coq Require Import Qround Lqa.
From Coq Require Import Lra.
From Verif Require Import Lib.Grid Model.ShapeContext Model.KeyPoints Model.Kernels Model.GpuAffinity Model.GpuShape Spec.GpuAffinity Spec.ShapeContext Spec.GpuShape Proofs.ShapeContext Proofs.KeyPoints Proofs.Kernels Proofs.GpuAffinity.
Import ListNotations.
Open Scope nat_scope.

Lemma fsum_inj i j : fsum i = fsum j -> i = j. Proof. unfold fsum. intro H. injection H. lia. Qed.
Lemma lane_inj k i l j : lane k i = lane l j -> k = l /\ i = j. Proof. unfold lane. intro H. apply pair_equal_spec in H. lia. Qed.
Lemma lane_sh k i j : lane k i <> sh j. Proof. unfold lane, sh. intro H. apply pair_equal_spec in H. lia. Qed.
Lemma lane_fsum k i j : lane k i <> fsum j. Proof. unfold lane, fsum. intro H. apply pair_equal_spec in H. lia. Qed.

(* threads that only vote *)
Definition tally1 (a : addr) (i : instr) : R := match i with Atomic b v => if addr_eqb a b then v else 0%R | _ => 0%R end.
Definition tally (a : addr) (q : list instr) : R := fold_right (fun i s => tally1 a i + s)%R 0%R q.
Definition only_atomic (q : list instr) : Prop := forall i, In i q -> exists b v, i = Atomic b v.
Lemma big_change n f g t : t < n -> (forall u, u <> t -> g u = f u) -> big n g = (big n f - f t + g t)%R.
Proof.
  intros T E. induction n as [|n IH]; [ lia |]. cbn [big]. destruct (Nat.eq_dec t n) as [->|N].
  - rewrite (big_ext n g f); [ lra |]. intros i I. apply E. lia.
  - rewrite IH by lia. rewrite (E n) by lia. lra.
Qed.
Lemma atomic_run n : forall sched m ths, (forall t, only_atomic (snd (ths t))) -> (forall t, n <= t -> snd (ths t) = []) ->
  forall a, (fst (fold_left step sched (m, ths)) a + big n (fun t => tally a (snd (snd (fold_left step sched (m, ths)) t))))%R = (m a + big n (fun t => tally a (snd (ths t))))%R.
Proof.
  induction sched as [|t sched IH]; intros m ths O E a; [ reflexivity |]. cbn [fold_left]. unfold step at 2 4. cbn [fst snd]. destruct (snd (ths t)) as [|i q] eqn:Q; [ now apply IH |].
  destruct (O t i) as (b & v & ->); [ rewrite Q; now left |]. assert (T : t < n) by (destruct (le_lt_dec n t) as [H|H]; [ rewrite (E t H) in Q; discriminate | exact H ]).
  rewrite IH.
  - cbn [exec fst snd]. rewrite (big_change n (fun u => tally a (snd (ths u))) _ t T).
    + cbv beta. rewrite Nat.eqb_refl, Q. cbn [snd]. change (tally a (Atomic b v :: q)) with (tally1 a (Atomic b v) + tally a q)%R. cbn [tally1]. unfold set. destruct (addr_eqb a b) eqn:A; [ apply addr_eqb_true in A; subst |]; lra.
    + intros u U. now rewrite (proj2 (Nat.eqb_neq u t) U).
  - intro u. destruct (Nat.eqb_spec u t); [| apply O ]. cbn [snd]. intros x X. apply (O t x). rewrite Q. now right.
  - intros u U. destruct (Nat.eqb_spec u t); [ lia | now apply E ].
Qed.
Lemma phase_atomic n p m m' : (forall t, only_atomic (p t)) -> phase n p m m' -> forall a, m' a = (m a + big n (fun t => tally a (p t)))%R.
Proof.
  intros O (sched & <- & E) a. cbv zeta in E |- *. assert (A := atomic_run n sched m (start n p)). unfold memory, threads in *. set (s := fold_left step sched (m, start n p)) in *.
  assert (Z : big n (fun t => tally a (snd (snd s t))) = 0%R) by (apply big_0; intros i _; now rewrite E).
  assert (A' : (fst s a + big n (fun t => tally a (snd (snd s t))) = m a + big n (fun t => tally a (snd (start n p t))))%R).
  { apply A.
    - intros t. unfold start. cbn [snd]. destruct (t <? n); [ apply O | intros i [] ].
    - intros t T. unfold start. now rewrite (proj2 (Nat.ltb_ge _ _) T). }
  rewrite Z, Rplus_0_r in A'. transitivity (m a + big n (fun t => tally a (snd (start n p t))))%R; [ exact A' |]. f_equal. apply big_ext. intros t T. unfold start. now rewrite (proj2 (Nat.ltb_lt _ _) T).
Qed.
Lemma tally_app a p q : tally a (p ++ q) = (tally a p + tally a q)%R.
Proof. unfold tally. induction p as [|i p IH]; cbn [app fold_right]; [ lra |]. rewrite IH. lra. Qed.
Lemma tally_flat a f : forall k, tally a (flat_map f (seq 0 k)) = big k (fun j => tally a (f j)).
Proof. induction k as [|k IH]; [ reflexivity |]. rewrite seq_S, flat_map_app, tally_app, IH. cbn [plus flat_map big]. now rewrite app_nil_r. Qed.

(* votes *)
Definition hit (i : nat) (v : option Z) : R := match v with Some b => if Z.eqb b (Z.of_nat i) then 1%R else 0%R | None => 0%R end.
Lemma ballots_cons i v l : INR (ballots i (v :: l)) = (hit i v + INR (ballots i l))%R.
Proof. unfold ballots, hit. cbn [filter]. destruct v as [b|]; [| lra ]. destruct (Z.eqb b (Z.of_nat i)); [| lra ]. change (length (Some b :: ?x)) with (S (length x)). rewrite S_INR. lra. Qed.
Lemma big_front n f : big (S n) f = (f 0%nat + big n (fun i => f (S i)))%R.
Proof. change (S n) with (1 + n). rewrite big_app. cbn. lra. Qed.
Lemma ballots_big i l : INR (ballots i l) = big (length l) (fun k => hit i (nth k l None)).
Proof. induction l as [|v l IH]; [ reflexivity |]. rewrite ballots_cons, IH. cbn [length]. rewrite big_front. reflexivity. Qed.
Lemma ballot_atomic n l t : only_atomic (ballot n l t).
Proof.
  intros i H. unfold ballot in H. apply in_flat_map in H. destruct H as (j & _ & H). destruct (nth (n * j + t) l None) as [b|]; [| destruct H ]. destruct (0 <=? b)%Z; [| destruct H ].
  destruct H as [<-|[]]. eauto.
Qed.
Lemma addr_eqb_refl a : addr_eqb a a = true. Proof. now apply addr_eqb_true. Qed.
Lemma addr_eqb_sh i j : addr_eqb (sh i) (sh j) = (i =? j).
Proof. destruct (Nat.eqb_spec i j) as [->|N]; [ apply addr_eqb_refl |]. apply addr_eqb_false. intro E. apply N. now apply sh_inj. Qed.
Lemma ballot_step n l m m' : 0 < n -> phase n (ballot n l) m m' -> (forall i, m' (sh i) = (m (sh i) + INR (ballots i l))%R) /\ (forall a, fst a <> 0%Z -> m' a = m a).
Proof.
  intros P K. pose proof (phase_atomic n _ m m' (ballot_atomic n l) K) as A. split.
  - intro i. rewrite A. f_equal. rewrite ballots_big. rewrite (big_ext n _ (fun t => big (div_up (length l) n) (fun j => hit i (nth (t + n * j) l None)))).
    + rewrite (big_grid n (div_up (length l) n) (fun x => hit i (nth x l None))). apply big_more; [ apply div_up_spec; exact P |]. intros x X. now rewrite nth_overflow.
    + intros t T. unfold ballot. rewrite tally_flat. apply big_ext. intros j J. rewrite (Nat.add_comm t). destruct (nth (n * j + t) l None) as [b|]; [| reflexivity ]. cbn [hit].
      destruct (Z.leb_spec 0 b); [| rewrite (proj2 (Z.eqb_neq b (Z.of_nat i))) by lia; reflexivity ].
      cbn [tally fold_right tally1]. rewrite addr_eqb_sh. destruct (Nat.eqb_spec i (Z.to_nat b)); destruct (Z.eqb_spec b (Z.of_nat i)); try lia; lra.
  - intros a N. rewrite A. rewrite big_0; [ lra |]. intros t T. unfold ballot. rewrite tally_flat. apply big_0. intros j J. destruct (nth (n * j + t) l None) as [b|]; [| reflexivity ]. destruct (0 <=? b)%Z; [| reflexivity ].
    cbn [tally fold_right tally1]. rewrite (proj2 (addr_eqb_false a (sh (Z.to_nat b)))); [ lra |]. intros ->. now apply N.
Qed.
(* what the first phases leave *)
Lemma fill_only n size d m m' : 0 < n -> phase n (fill n size d) m m' -> (forall i, i < n * div_up size n -> m' (sh i) = if i <? size then d i else 0%R) /\ (forall i, n * div_up size n <= i -> m' (sh i) = m (sh i)) /\ (forall a, fst a <> 0%Z -> m' a = m a).
Proof.
  intros P K. split; [ exact (proj1 (fill_step n size d None m m' P K)) |]. apply phase_free in K.
  - destruct K as [_ B]. split.
    + intros i I. apply B. intros t T W. rewrite fill_writes, in_map_iff in W. destruct W as (j & E & J). apply sh_inj in E. apply in_seq in J. nia.
    + intros a N. apply B. intros t T W. rewrite fill_writes, in_map_iff in W. destruct W as (j & <- & _). now apply N.
  - intros t u a T U N W R. rewrite fill_writes, in_map_iff in W. destruct W as (x & <- & X). rewrite fill_reads, fill_writes in R. cbn [app] in R. rewrite in_map_iff in R. destruct R as (y & E & Y). apply sh_inj in E. assert (x = y) by nia. subst. lia.
Qed.
Definition starting (size : nat) (init : R) (votes : option (list (option Z))) (i : nat) : R := ((if i <? size then init else 0) + INR (counted_votes i votes))%R.
Lemma histogram_step n size init votes m m' : 0 < n -> kernel n (histogram n size init votes) m m' ->
  (forall i, i < n * div_up size n -> m' (sh i) = starting size init votes i) /\ (forall i, n * div_up size n <= i -> m' (sh i) = (m (sh i) + INR (counted_votes i votes))%R) /\ (forall a, fst a <> 0%Z -> m' a = m a).
Proof.
  intros P K. unfold histogram in K. apply kernel_cons in K. destruct K as (m1 & A & B). apply fill_only in A; [| exact P ]. destruct A as (A1 & A2 & A3). unfold starting. destruct votes as [l|]; cbn [counted_votes].
  - apply kernel_one in B. apply ballot_step in B; [| exact P ]. destruct B as [B1 B2]. split; [| split ].
    + intros i I. now rewrite B1, A1.
    + intros i I. now rewrite B1, A2.
    + intros a N. now rewrite B2, A3.
  - apply kernel_nil in B. subst m1. split; [| split ]; [ intros i I; rewrite A1 by assumption; cbn; lra | intros i I; rewrite A2 by assumption; cbn; lra | exact A3 ].
Qed.
Definition fits (size : nat) (votes : option (list (option Z))) : Prop := forall l b, votes = Some l -> In (Some b) l -> (b < Z.of_nat size)%Z.
Lemma counted_outside size votes i : fits size votes -> size <= i -> counted_votes i votes = 0.
Proof.
  intros F I. destruct votes as [l|]; [| reflexivity ]. cbn [counted_votes]. unfold ballots. specialize (F l). induction l as [|v l IH]; [ reflexivity |]. cbn [filter].
  destruct v as [b|]; [| apply IH; intros c _ C; apply F; [ reflexivity | now right ] ].
  assert (b < Z.of_nat size)%Z by (apply F; [ reflexivity | now left ]). rewrite (proj2 (Z.eqb_neq b (Z.of_nat i))) by lia. apply IH. intros c _ C. apply F; [ reflexivity | now right ].
Qed.
Lemma starting_outside size init votes i : fits size votes -> size <= i -> starting size init votes i = 0%R.
Proof. intros F I. unfold starting. rewrite (counted_outside size votes i F I), (proj2 (Nat.ltb_ge i size) I). cbn. lra. Qed.
Lemma starting_norm size init votes k : fits size votes -> size <= k -> big k (fun i => starting size init votes i * starting size init votes i)%R = norm2 size (starting size init votes).
Proof. intros F K. unfold norm2. apply big_more; [ exact K |]. intros i I. rewrite starting_outside by assumption. lra. Qed.

(* shuffles *)
Ltac free := intros ? ? ? ? ? ?; cbn; intros [<-|[]]; intros F; repeat (destruct F as [F|F]);
  try (match goal with H : _ = _ |- _ => first [ apply lane_inj in H | apply fsum_inj in H | symmetry in H; apply lane_sh in H | apply lane_sh in H | apply lane_fsum in H | symmetry in H; apply lane_fsum in H ] end); try lia; try tauto; try discriminate.
Lemma squared_step m m' : phase 32 (fun t => [Load (sh t); Mul (sh t); Store (lane 0 t)]) m m' -> (forall t, t < 32 -> m' (lane 0 t) = (m (sh t) * m (sh t))%R) /\ (forall i, m' (sh i) = m (sh i)).
Proof.
  intro K. apply phase_free in K; [| free ]. destruct K as [A B]. split.
  - intros t T. rewrite (A t (lane 0 t) T) by (cbn; auto). alone_simp. now rewrite set_same.
  - intro i. apply B. intros t T. cbn. intros [F|[]]. now apply lane_sh in F.
Qed.
Lemma shuffle_step k h m m' : phase 32 (shuffle k h) m m' -> (forall t, t + h < 32 -> m' (lane (S k) t) = (m (lane k t) + m (lane k (t + h)%nat))%R) /\ (forall i, m' (sh i) = m (sh i)).
Proof.
  intro K. apply phase_free in K.
  - destruct K as [A B]. split.
    + intros t T. rewrite (A t (lane (S k) t)) by (cbn; auto; lia). unfold shuffle. rewrite (proj2 (Nat.ltb_lt _ _) T). alone_simp. now rewrite set_same.
    + intro i. apply B. intros t T. cbn. intros [F|[]]. now apply lane_sh in F.
  - free.
Qed.
Lemma last_step m m' : phase 32 (fun t => [Load (lane 5 0); Store (fsum t)]) m m' -> (forall t, t < 32 -> m' (fsum t) = m (lane 5 0)) /\ (forall i, m' (sh i) = m (sh i)).
Proof.
  intro K. apply phase_free in K; [| free ]. destruct K as [A B]. split.
  - intros t T. rewrite (A t (fsum t) T) by (cbn; auto). alone_simp. now rewrite set_same.
  - intro i. apply B. intros t T. cbn. intros [F|[]]. discriminate.
Qed.
Lemma thirty_two (l0 l1 l2 l3 l4 l5 : nat -> R) : (forall t : nat, (t + 16 < 32)%nat -> l1 t = l0 t + l0 (t + 16)%nat)%R -> (forall t : nat, (t + 8 < 16)%nat -> l2 t = l1 t + l1 (t + 8)%nat)%R -> (forall t : nat, (t + 4 < 8)%nat -> l3 t = l2 t + l2 (t + 4)%nat)%R ->
  (forall t : nat, (t + 2 < 4)%nat -> l4 t = l3 t + l3 (t + 2)%nat)%R -> (l5 0%nat = l4 0%nat + l4 1%nat)%R -> l5 0%nat = big 32 l0.
Proof.
  intros A B C D E. rewrite E, !D by lia. rewrite !C by lia. rewrite !B by lia. rewrite !A by lia. cbn [plus big]. lra.
Qed.
Lemma shuffles_step m m' : kernel 32 by_shuffles m m' -> (forall t, t < 32 -> m' (fsum t) = big 32 (fun i => m (sh i) * m (sh i))%R) /\ (forall i, m' (sh i) = m (sh i)).
Proof.
  intro K. unfold by_shuffles in K. apply kernel_cons in K. destruct K as (m1 & A & K). apply kernel_cons in K. destruct K as (m2 & B & K). apply kernel_cons in K. destruct K as (m3 & C & K).
  apply kernel_cons in K. destruct K as (m4 & D & K). apply kernel_cons in K. destruct K as (m5 & E & K). apply kernel_cons in K. destruct K as (m6 & F & K). apply kernel_one in K.
  apply squared_step in A. apply shuffle_step in B. apply shuffle_step in C. apply shuffle_step in D. apply shuffle_step in E. apply shuffle_step in F. apply last_step in K.
  destruct A as [A A'], B as [B B'], C as [C C'], D as [D D'], E as [E E'], F as [F F'], K as [K K']. split.
  - intros t T. rewrite (K t T). rewrite (thirty_two (fun t => m1 (lane 0 t)) (fun t => m2 (lane 1 t)) (fun t => m3 (lane 2 t)) (fun t => m4 (lane 3 t)) (fun t => m5 (lane 4 t)) (fun t => m6 (lane 5 t))).
    + apply big_ext. intros i I. now apply A.
    + intros i I. apply B. lia.
    + intros i I. apply C. lia.
    + intros i I. apply D. lia.
    + intros i I. apply E. lia.
    + apply F. lia.
  - intro i. now rewrite K', F', E', D', C', B', A'.
Qed.
Lemma norm2_pos size v : (0 <= norm2 size v)%R.
Proof. unfold norm2. induction size as [|k IH]; cbn [big]; [ lra |]. pose proof (Rle_0_sqr (v k)) as H. unfold Rsqr in H. lra. Qed.
Lemma output_direction n size v m i : 0 < n -> (forall t, t < n -> m (fsum t) = norm2 size v) -> (m (sh i) = v i)%R -> output n true m i = direction size v i.
Proof.
  intros P S V. unfold output, direction. rewrite S by (apply Nat.mod_upper_bound; lia). rewrite V. pose proof (norm2_pos size v). destruct (Rle_dec (norm2 size v) 0), (Req_EM_T (norm2 size v) 0); (reflexivity || lra).
Qed.
Lemma gpu_plain n size init votes res : 0 < n -> gpu_desc n size init votes false res -> forall i, i < size -> res i = Some (init + INR (counted_votes i votes))%R.
Proof.
  intros P (m & m' & K & E) i I. rewrite app_nil_r in K. apply histogram_step in K; [| exact P ]. destruct K as [K _]. rewrite (E i I). cbn [output]. destruct (div_up_spec size n P) as [D _]. rewrite K by lia.
  unfold starting. now rewrite (proj2 (Nat.ltb_lt _ _) I).
Qed.
Lemma direction_ext size v w i : (forall j, j < size -> v j = w j) -> i < size -> direction size v i = direction size w i.
Proof. intros E I. unfold direction. replace (norm2 size v) with (norm2 size w) by (apply big_ext; intros j J; now rewrite E). now rewrite E. Qed.
Lemma div_up_one size : 0 < size -> size <= 32 -> div_up size 32 = 1.
Proof. intros A B. unfold div_up. symmetry. apply (Nat.div_unique _ 32 1 (size - 1)); lia. Qed.
Lemma gpu_shuffled size init votes res : 0 < size -> size <= 32 -> fits size votes -> gpu_desc 32 size init votes true res ->
  forall i, i < size -> res i = direction size (fun j => init + INR (counted_votes j votes))%R i.
Proof.
  intros S0 S F (m & m' & K & E) i I. apply kernel_app in K. destruct K as (m1 & A & B). unfold normalization, lut_size in B. rewrite (div_up_one size S0 S) in B. cbn [Nat.mul Nat.add Nat.eqb andb] in B.
  apply histogram_step in A; [| lia ]. destruct A as (A & _ & _). rewrite (div_up_one size S0 S) in A. apply shuffles_step in B. destruct B as [B B'].
  rewrite (E i I). rewrite (output_direction 32 size (starting size init votes)).
  - apply direction_ext; [| exact I ]. intros j J. unfold starting. now rewrite (proj2 (Nat.ltb_lt _ _) J).
  - lia.
  - intros t T. rewrite (B t T). rewrite <- (starting_norm size init votes 32 F S). apply big_ext. intros j J. now rewrite A by lia.
  - rewrite B'. apply A. lia.
Qed.

(* in lockstep *)
Lemma rounds_app n a b : rounds n (a + b) = rounds n a ++ rounds n b.
Proof. unfold rounds. now rewrite repeat_app, concat_app. Qed.
Lemma rounds_one n : rounds n 1 = seq 0 n.
Proof. unfold rounds. cbn. apply app_nil_r. Qed.
(* the threads before k have done their next instruction i, which does not write *)
Lemma read_round n (i : nat -> instr) (q : nat -> list instr) s0 : (forall t, t < n -> snd (snd s0 t) = i t :: q t /\ writes1 (i t) = []) -> forall k, k <= n ->
  let s := fold_left step (seq 0 k) s0 in (forall a, fst s a = fst s0 a) /\ (forall t, t < k -> snd s t = (snd (exec (i t) (fst s0) (fst (snd s0 t))), q t)) /\ (forall t, k <= t -> snd s t = snd s0 t).
Proof.
  intro H. induction k as [|k IH]; intro K; [ cbn; repeat split; intros; lia |]. cbv zeta. rewrite seq_S, fold_left_app. cbn [plus fold_left]. destruct (IH ltac:(lia)) as (A & B & C). cbv zeta in A, B, C.
  set (s := fold_left step (seq 0 k) s0) in *. destruct (H k ltac:(lia)) as [Hk W]. unfold step. rewrite (C k (le_n k)), Hk. cbn [fst snd]. repeat split.
  - intro a. rewrite exec_keep; [ apply A | now rewrite W ].
  - intros t T. destruct (Nat.eqb_spec t k) as [->|N]; [| apply B; lia ]. f_equal. apply exec_reg. intros a _. apply A.
  - intros t T. rewrite (proj2 (Nat.eqb_neq t k)) by lia. apply C. lia.
Qed.
Lemma write_round n (c : nat -> addr) (q : nat -> list instr) s0 : (forall t, t < n -> snd (snd s0 t) = Store (c t) :: q t) -> (forall t u, t < n -> u < n -> c t = c u -> t = u) -> forall k, k <= n ->
  let s := fold_left step (seq 0 k) s0 in (forall t, t < k -> fst s (c t) = fst (snd s0 t)) /\ (forall a, (forall t, t < k -> a <> c t) -> fst s a = fst s0 a) /\ (forall t, t < k -> snd s t = (fst (snd s0 t), q t)) /\ (forall t, k <= t -> snd s t = snd s0 t).
Proof.
  intros H Inj. induction k as [|k IH]; intro K; [ cbn; repeat split; intros; try lia; auto |]. cbv zeta. rewrite seq_S, fold_left_app. cbn [plus fold_left]. destruct (IH ltac:(lia)) as (A & B & C & D). cbv zeta in A, B, C, D.
  set (s := fold_left step (seq 0 k) s0) in *. unfold step. rewrite (D k (le_n k)), (H k ltac:(lia)). cbn [fst snd exec]. repeat split.
  - intros t T. destruct (Nat.eq_dec t k) as [->|N]; [ apply set_same |]. rewrite set_other; [ apply A; lia |]. intro E. apply N. apply Inj; [ lia | lia | exact E ].
  - intros a N. rewrite set_other by (apply N; lia). apply B. intros t T. apply N. lia.
  - intros t T. destruct (Nat.eqb_spec t k) as [->|N]; [ reflexivity | apply C; lia ].
  - intros t T. rewrite (proj2 (Nat.eqb_neq t k)) by lia. apply D. lia.
Qed.
(* c := op a b by all threads *)
Definition op_instr (mul : bool) (b : addr) : instr := if mul then Mul b else Add b.
Definition op_value (mul : bool) (x y : R) : R := if mul then (x * y)%R else (x + y)%R.
Definition todo (n : nat) (s : memory * threads) (q : nat -> list instr) : Prop := (forall t, t < n -> snd (snd s t) = q t) /\ forall t, n <= t -> snd (snd s t) = [].
Lemma triple_rounds n mul (a b c : nat -> addr) q s : todo n s (fun t => Load (a t) :: op_instr mul (b t) :: Store (c t) :: q t) -> (forall t u, t < n -> u < n -> c t = c u -> t = u) ->
  let s' := fold_left step (rounds n 3) s in todo n s' q /\ (forall t, t < n -> fst s' (c t) = op_value mul (fst s (a t)) (fst s (b t))) /\ (forall x, (forall t, t < n -> x <> c t) -> fst s' x = fst s x).
Proof.
  intros [T E] Inj. cbv zeta. change 3 with (1 + (1 + 1)). rewrite !rounds_app, !rounds_one, !fold_left_app.
  destruct (read_round n (fun t => Load (a t)) (fun t => op_instr mul (b t) :: Store (c t) :: q t) s (fun t L => conj (T t L) eq_refl) n (le_n n)) as (A1 & A2 & A3). cbv zeta in A1, A2, A3. set (s1 := fold_left step (seq 0 n) s) in *.
  assert (X : forall t, t < n -> snd (snd s1 t) = op_instr mul (b t) :: Store (c t) :: q t /\ writes1 (op_instr mul (b t)) = []) by (intros t L; rewrite (A2 t L); split; [ reflexivity | now destruct mul ]).
  destruct (read_round n _ _ s1 X n (le_n n)) as (B1 & B2 & B3). clear X. cbv zeta in B1, B2, B3. set (s2 := fold_left step (seq 0 n) s1) in *.
  assert (X : forall t, t < n -> snd (snd s2 t) = Store (c t) :: q t) by (intros t L; now rewrite (B2 t L)).
  destruct (write_round n c q s2 X Inj n (le_n n)) as (C1 & C2 & C3 & C4). clear X. cbv zeta in C1, C2, C3, C4. set (s3 := fold_left step (seq 0 n) s2) in *. unfold todo, memory, threads in *. split; [ split |split ].
  - intros t L. now rewrite (C3 t L).
  - intros t L. rewrite (C4 t L), (B3 t L), (A3 t L). now apply E.
  - intros t L. rewrite (C1 t L), (B2 t L). cbn [fst]. rewrite (A2 t L). cbn [fst snd exec]. destruct mul; cbn [op_instr op_value exec snd]; now rewrite A1.
  - intros x X. rewrite (C2 x X), B1. apply A1.
Qed.
Lemma pair_rounds n (a c : nat -> addr) q s : todo n s (fun t => Load (a t) :: Store (c t) :: q t) -> (forall t u, t < n -> u < n -> c t = c u -> t = u) ->
  let s' := fold_left step (rounds n 2) s in todo n s' q /\ (forall t, t < n -> fst s' (c t) = fst s (a t)) /\ (forall x, (forall t, t < n -> x <> c t) -> fst s' x = fst s x).
Proof.
  intros [T E] Inj. cbv zeta. change 2 with (1 + 1). rewrite !rounds_app, !rounds_one, !fold_left_app.
  destruct (read_round n (fun t => Load (a t)) (fun t => Store (c t) :: q t) s (fun t L => conj (T t L) eq_refl) n (le_n n)) as (A1 & A2 & A3). cbv zeta in A1, A2, A3. set (s1 := fold_left step (seq 0 n) s) in *.
  assert (X : forall t, t < n -> snd (snd s1 t) = Store (c t) :: q t) by (intros t L; now rewrite (A2 t L)).
  destruct (write_round n c q s1 X Inj n (le_n n)) as (C1 & C2 & C3 & C4). clear X. cbv zeta in C1, C2, C3, C4. set (s3 := fold_left step (seq 0 n) s1) in *. unfold todo, memory, threads in *. split; [ split | split ].
  - intros t L. now rewrite (C3 t L).
  - intros t L. rewrite (C4 t L), (A3 t L). now apply E.
  - intros t L. rewrite (C1 t L), (A2 t L). reflexivity.
  - intros x X. now rewrite (C2 x X), A1.
Qed.

Section Lock.
Context (n size : nat).
Notation L := (lut_size n size).
Lemma squares_rounds rest : forall k a s, n * (a + k) <= L ->
  todo n s (fun t => flat_map (fun j => [Load (sh (n * j + t)); Mul (sh (n * j + t)); Store (sh (L + (n * j + t)))]) (seq a k) ++ rest t) ->
  let s' := fold_left step (rounds n (3 * k)) s in todo n s' rest /\ (forall j t, a <= j < a + k -> t < n -> fst s' (sh (L + (n * j + t))) = (fst s (sh (n * j + t)) * fst s (sh (n * j + t)))%R) /\
    (forall x, (forall j t, a <= j < a + k -> t < n -> x <> sh (L + (n * j + t))) -> fst s' x = fst s x).
Proof.
  induction k as [|k IH]; intros a s B T; [ cbn in T |- *; split; [ exact T |]; split; [ intros; lia | reflexivity ] |].
  replace (3 * S k) with (3 + 3 * k) by lia. cbv zeta. rewrite rounds_app, fold_left_app. cbn [seq flat_map app] in T.
  apply (triple_rounds n true (fun t => sh (n * a + t)) (fun t => sh (n * a + t)) (fun t => sh (L + (n * a + t)))) in T; [| intros t u _ _ E; apply sh_inj in E; lia ]. cbv zeta in T. destruct T as (T & V & K).
  set (s1 := fold_left step (rounds n 3) s) in *. destruct (IH (S a) s1 ltac:(lia) T) as (T' & V' & K'). cbv zeta in T', V', K'. set (s2 := fold_left step (rounds n (3 * k)) s1) in *. unfold memory, threads in *. split; [ exact T' |]. split.
  - intros j t J U. assert (n * j + t < L) by nia. destruct (Nat.eq_dec j a) as [->|N].
    + rewrite K'; [ rewrite (V t U); reflexivity |]. intros i u I U' E. apply sh_inj in E. nia.
    + rewrite V' by lia. rewrite !K by (intros u U' E; apply sh_inj in E; lia). reflexivity.
  - intros x X. rewrite K' by (intros j t J; apply X; lia). apply K. intros t U. apply X; [ lia | exact U ].
Qed.
Lemma columns_rounds rest : forall q s, todo n s (fun t => flat_map (fun j => accumulate n size (t + n * (j - 1)) (t + n * j)) (rev (seq 1 q)) ++ rest t) ->
  let s' := fold_left step (rounds n (3 * q)) s in todo n s' rest /\ (forall t, t < n -> fst s' (sh (L + t)) = big (S q) (fun j => fst s (sh (L + (t + n * j))))) /\ (forall x, (forall i, x <> sh (L + i)) -> fst s' x = fst s x).
Proof.
  induction q as [|q IH]; intros s T; [ cbn in T |- *; split; [ exact T |]; split; [ intros t U; rewrite Nat.mul_0_r, Nat.add_0_r; lra | reflexivity ] |].
  replace (3 * S q) with (3 + 3 * q) by lia. cbv zeta. rewrite rounds_app, fold_left_app. rewrite seq_S, rev_app_distr in T. cbn [rev app flat_map accumulate plus] in T.
  apply (triple_rounds n false (fun t => sh (L + (t + n * (S q - 1)))) (fun t => sh (L + (t + n * S q))) (fun t => sh (L + (t + n * (S q - 1))))) in T; [| intros t u _ _ E; apply sh_inj in E; lia ]. cbv zeta in T. destruct T as (T & V & K).
  set (s1 := fold_left step (rounds n 3) s) in *. destruct (IH s1 T) as (T' & V' & K'). cbv zeta in T', V', K'. set (s2 := fold_left step (rounds n (3 * q)) s1) in *. unfold memory, threads in *. cbn [op_value] in V. rewrite Nat.sub_succ, Nat.sub_0_r in V, K. split; [ exact T' |]. split.
  - intros t U. rewrite (V' t U). cbn [big]. rewrite (V t U), <- Rplus_assoc. f_equal. f_equal. apply big_ext. intros j J. apply K. intros u U' E. apply sh_inj in E. nia.
  - intros x X. rewrite (K' x X). apply K. intros t U. apply X.
Qed.
Lemma accumulate_rounds rest h s : todo n s (fun t => accumulate n size t (t + h) ++ rest t) ->
  let s' := fold_left step (rounds n 3) s in todo n s' rest /\ (forall t, t < n -> fst s' (sh (L + t)) = (fst s (sh (L + t)) + fst s (sh (L + (t + h))))%R) /\ (forall x, (forall i, x <> sh (L + i)) -> fst s' x = fst s x).
Proof.
  intro T. apply (triple_rounds n false (fun t => sh (L + t)) (fun t => sh (L + (t + h))) (fun t => sh (L + t))) in T; [| intros t u _ _ E; apply sh_inj in E; lia ]. cbv zeta in T |- *. destruct T as (T & V & K).
  split; [ exact T |]. split; [ exact V |]. intros x X. apply K. intros t U. apply X.
Qed.
End Lock.
Lemma flat3 {A : Type} (f : A -> list instr) l : (forall x, length (f x) = 3) -> length (flat_map f l) = 3 * length l.
Proof. intro H. induction l as [|x l IH]; [ reflexivity |]. cbn [flat_map length]. rewrite app_length, IH, H. lia. Qed.
Lemma together_length size : length (together 32 size 0) = 3 * div_up size 32 + (3 * (div_up size 32 - 1) + (3 + (3 + (3 + (3 + (3 + 2)))))).
Proof.
  unfold together. rewrite !app_length. unfold squares, columns, across. rewrite !flat3 by reflexivity. rewrite rev_length, !seq_length. change (halves 32 32) with [16; 8; 4; 2; 1]. cbn [length total]. lia.
Qed.
Lemma together_lockstep size m m' : 32 < size -> reaches 32 (together 32 size) (rounds 32 (length (together 32 size 0))) m m' ->
  (forall t, t < 32 -> m' (fsum t) = big (32 * div_up size 32) (fun i => m (sh i) * m (sh i))%R) /\ (forall i, i < lut_size 32 size -> m' (sh i) = m (sh i)).
Proof.
  intros S0 [E _]. destruct (div_up_spec size 32 ltac:(lia)) as [D _]. rewrite together_length, !rounds_app, !fold_left_app in E.
  assert (T : todo 32 (m, start 32 (together 32 size)) (fun t => squares 32 size t ++ (columns 32 size t ++ accumulate 32 size t (t + 16) ++ accumulate 32 size t (t + 8) ++ accumulate 32 size t (t + 4) ++ accumulate 32 size t (t + 2) ++ accumulate 32 size t (t + 1) ++ total 32 size t))).
  { split; intros t U; unfold start; cbn [snd].
    - rewrite (proj2 (Nat.ltb_lt _ _) U). cbn [snd]. unfold together, across. change (halves 32 32) with [16; 8; 4; 2; 1]. cbn [flat_map]. rewrite app_nil_r, <- !app_assoc. reflexivity.
    - now rewrite (proj2 (Nat.ltb_ge _ _) U). }
  unfold squares in T. apply squares_rounds in T; [| unfold lut_size; lia ]. cbv zeta in T. destruct T as (T & V0 & K0). set (s0 := fold_left step (rounds 32 (3 * div_up size 32)) _) in *.
  unfold columns in T. apply columns_rounds in T. cbv zeta in T. destruct T as (T & V1 & K1). set (s1 := fold_left step (rounds 32 (3 * (div_up size 32 - 1))) s0) in *.
  apply accumulate_rounds in T. cbv zeta in T. destruct T as (T & V2 & K2). set (s2 := fold_left step (rounds 32 3) s1) in *.
  apply accumulate_rounds in T. cbv zeta in T. destruct T as (T & V3 & K3). set (s3 := fold_left step (rounds 32 3) s2) in *.
  apply accumulate_rounds in T. cbv zeta in T. destruct T as (T & V4 & K4). set (s4 := fold_left step (rounds 32 3) s3) in *.
  apply accumulate_rounds in T. cbv zeta in T. destruct T as (T & V5 & K5). set (s5 := fold_left step (rounds 32 3) s4) in *.
  apply accumulate_rounds in T. cbv zeta in T. destruct T as (T & V6 & K6). set (s6 := fold_left step (rounds 32 3) s5) in *.
  apply (pair_rounds 32 (fun _ => sh (lut_size 32 size)) fsum (fun _ => [])) in T; [| intros t u _ _ F; now apply fsum_inj ]. cbv zeta in T. destruct T as (_ & V7 & K7). set (s7 := fold_left step (rounds 32 2) s6) in *.
  unfold memory, threads in *. split.
  - intros t U. rewrite <- E. rewrite (V7 t U). rewrite <- (Nat.add_0_r (lut_size 32 size)).
    rewrite (thirty_two (fun t => fst s1 (sh (lut_size 32 size + t))) (fun t => fst s2 (sh (lut_size 32 size + t))) (fun t => fst s3 (sh (lut_size 32 size + t))) (fun t => fst s4 (sh (lut_size 32 size + t))) (fun t => fst s5 (sh (lut_size 32 size + t))) (fun t => fst s6 (sh (lut_size 32 size + t)))).
    + rewrite <- big_grid. apply big_ext. intros u U'. rewrite (V1 u U'). replace (S (div_up size 32 - 1)) with (div_up size 32) by lia. apply big_ext. intros j J. rewrite (Nat.add_comm u). rewrite (V0 j u) by lia. reflexivity.
    + intros i I. apply V2. lia.
    + intros i I. apply V3. lia.
    + intros i I. apply V4. lia.
    + intros i I. apply V5. lia.
    + apply V6. lia.
  - intros i I. assert (X : forall j, sh i <> sh (lut_size 32 size + j)) by (intros j F; apply sh_inj in F; lia).
    rewrite <- E. rewrite K7 by (intros; discriminate). rewrite K6, K5, K4, K3, K2, K1 by exact X. rewrite K0 by (intros; apply X). reflexivity.
Qed.
Lemma gpu_lockstep size init votes res : 32 < size -> fits size votes -> lockstep_desc size init votes res -> forall i, i < size -> res i = direction size (fun j => init + INR (counted_votes j votes))%R i.
Proof.
  intros S F (m & m1 & m' & A & B & E) i I. destruct (div_up_spec size 32 ltac:(lia)) as [D _]. apply histogram_step in A; [| lia ]. destruct A as (A & _ & _). apply together_lockstep in B; [| exact S ]. destruct B as [B B'].
  rewrite (E i I). rewrite (output_direction 32 size (starting size init votes)).
  - apply direction_ext; [| exact I ]. intros j J. unfold starting. now rewrite (proj2 (Nat.ltb_lt _ _) J).
  - lia.
  - intros t T. rewrite (B t T). rewrite <- (starting_norm size init votes (32 * div_up size 32) F D). apply big_ext. intros j J. now rewrite A by lia.
  - rewrite B' by (unfold lut_size; lia). apply A. lia.
Qed.
(* lockstep is one way to run *)
Lemma lockstep_is_a_run size init votes res : 32 < size -> lockstep_desc size init votes res -> gpu_desc 32 size init votes true res.
Proof.
  intros S (m & m1 & m' & A & B & E). exists m, m'. split; [| exact E ]. destruct (div_up_spec size 32 ltac:(lia)) as [D _]. unfold normalization.
  assert (L : 32 < lut_size 32 size) by (unfold lut_size; lia). rewrite (proj2 (Nat.eqb_neq (lut_size 32 size) 32)) by lia. rewrite (proj2 (Nat.ltb_lt _ _) L). cbn [andb].
  assert (C : forall ps m m1, kernel 32 ps m m1 -> kernel 32 [together 32 size] m1 m' -> kernel 32 (ps ++ [together 32 size]) m m').
  { intros ps. induction ps as [|p ps IH]; intros x y K Q; [ apply kernel_nil in K; now subst |]. apply kernel_cons in K. destruct K as (z & H & K). cbn [app]. econstructor; [ exact H |]. eapply IH; eauto. }
  apply (C _ m m1 A). econstructor; [| constructor ]. eexists. exact B.
Qed.
Lemma kernel_join n ps qs m m1 m' : kernel n ps m m1 -> kernel n qs m1 m' -> kernel n (ps ++ qs) m m'.
Proof. intro K. induction K as [|p ps x y z H K IH]; intro Q; [ exact Q |]. cbn [app]. econstructor; [ exact H | now apply IH ]. Qed.
Lemma lockstep_exists size init votes : 32 < size -> exists res, lockstep_desc size init votes res.
Proof.
  intro S. destruct (kernel_exists 32 (histogram 32 size init votes) (fun _ => 0%R)) as (m1 & K).
  set (s := fold_left step (rounds 32 (length (together 32 size 0))) (m1, start 32 (together 32 size))).
  exists (fun i => output 32 true (fst s) i), (fun _ => 0%R), m1, (fst s). split; [ exact K |]. split; [| reflexivity ]. split; [ reflexivity |].
  (* all instructions are done *)
  unfold s. clear s K. destruct (div_up_spec size 32 ltac:(lia)) as [D _]. rewrite together_length, !rounds_app, !fold_left_app.
  assert (T : todo 32 (m1, start 32 (together 32 size)) (fun t => squares 32 size t ++ (columns 32 size t ++ accumulate 32 size t (t + 16) ++ accumulate 32 size t (t + 8) ++ accumulate 32 size t (t + 4) ++ accumulate 32 size t (t + 2) ++ accumulate 32 size t (t + 1) ++ total 32 size t))).
  { split; intros t U; unfold start; cbn [snd].
    - rewrite (proj2 (Nat.ltb_lt _ _) U). cbn [snd]. unfold together, across. change (halves 32 32) with [16; 8; 4; 2; 1]. cbn [flat_map]. rewrite app_nil_r, <- !app_assoc. reflexivity.
    - now rewrite (proj2 (Nat.ltb_ge _ _) U). }
  unfold squares in T. apply squares_rounds in T; [| unfold lut_size; lia ]. destruct T as (T & _). unfold columns in T. apply columns_rounds in T. destruct T as (T & _).
  do 5 (apply accumulate_rounds in T; destruct T as (T & _)).
  apply (pair_rounds 32 (fun _ => sh (lut_size 32 size)) fsum (fun _ => [])) in T; [| intros t u _ _ F; now apply fsum_inj ]. destruct T as (T & _). destruct T as [T T']. intro t. destruct (le_lt_dec 32 t); [ now apply T' | now apply T ].
Qed.

(* one thread after the other *)
Definition in_turn (n : nat) (p : program) (m : memory) : memory := fold_left (fun m t => fst (alone (p t) m 0%R)) (seq 0 n) m.
Lemma run_alone t : forall q s, snd (snd s t) = q -> let s' := fold_left step (repeat t (length q)) s in fst s' = fst (alone q (fst s) (fst (snd s t))) /\ snd (snd s' t) = [] /\ forall u, u <> t -> snd s' u = snd s u.
Proof.
  induction q as [|i q IH]; intros s H; cbn [length repeat fold_left]; cbv zeta; [ split; [ reflexivity | auto ] |].
  assert (E : step s t = (fst (exec i (fst s) (fst (snd s t))), fun u => if Nat.eqb u t then (snd (exec i (fst s) (fst (snd s t))), q) else snd s u)) by (unfold step; unfold memory, threads in *; now rewrite H).
  destruct (IH (step s t)) as (A & B & C); [ rewrite E; cbn [snd]; now rewrite Nat.eqb_refl |]. cbv zeta in A, B, C. split; [| split ].
  - rewrite A, E. cbn [fst snd]. rewrite Nat.eqb_refl. cbn [fst]. now rewrite alone_cons.
  - exact B.
  - intros u U. rewrite (C u U), E. cbn [snd]. now rewrite (proj2 (Nat.eqb_neq u t) U).
Qed.
Lemma turns n p m : forall k, k <= n -> exists sched, let s := fold_left step sched (m, start n p) in fst s = in_turn k p m /\ (forall t, t < k -> snd (snd s t) = []) /\ (forall t, k <= t -> snd s t = start n p t).
Proof.
  induction k as [|k IH]; intro K; [ exists []; cbn; repeat split; intros; lia |]. destruct (IH ltac:(lia)) as (sched & A & B & C). set (s := fold_left step sched (m, start n p)) in *.
  exists (sched ++ repeat k (length (p k))). cbv zeta. rewrite fold_left_app. change (fold_left step sched (m, start n p)) with s.
  assert (E : snd s k = (0%R, p k)) by (unfold memory, threads in *; rewrite (C k (le_n k)); unfold start; now rewrite (proj2 (Nat.ltb_lt _ _) K)).
  destruct (run_alone k (p k) s) as (A' & B' & C'); [ unfold memory, threads in *; now rewrite E |]. cbv zeta in A', B', C'. unfold memory, threads in *. split; [| split ].
  - rewrite A', E, A. unfold in_turn. rewrite seq_S, fold_left_app. reflexivity.
  - intros t T. destruct (Nat.eq_dec t k) as [->|N]; [ exact B' |]. rewrite (C' t N). apply B. lia.
  - intros t T. rewrite C' by lia. apply C. lia.
Qed.
Lemma phase_in_turn n p m : phase n p m (in_turn n p m).
Proof.
  destruct (turns n p m n (le_n n)) as (sched & A & B & C). exists sched. split; [ exact A |]. intro t. unfold memory, threads in *. destruct (le_lt_dec n t) as [H|H]; [| now apply B ].
  rewrite (C t H). unfold start. now rewrite (proj2 (Nat.ltb_ge _ _) H).
Qed.
Lemma in_turn_S n p m : in_turn (S n) p m = fst (alone (p n) (in_turn n p m) 0%R).
Proof. unfold in_turn. now rewrite seq_S, fold_left_app. Qed.
Lemma in_turn_first n p m a : (forall t, 0 < t -> t < S n -> ~ In a (writes (p t))) -> in_turn (S n) p m a = fst (alone (p 0) m 0%R) a.
Proof.
  induction n as [|n IH]; intro H; [ reflexivity |]. rewrite in_turn_S. rewrite alone_keep by (apply H; lia). apply IH. intros t T U. apply H; lia.
Qed.

Section First.
(* the first thread alone *)
Context (n size : nat) (P : 0 < n).
Notation L := (lut_size n size).
Lemma squares_first m r k : n * k <= L ->
  let m' := fst (alone (flat_map (fun j => [Load (sh (n * j + 0)); Mul (sh (n * j + 0)); Store (sh (L + (n * j + 0)))]) (seq 0 k)) m r) in
  (forall j, j < k -> m' (sh (L + n * j)) = (m (sh (n * j)) * m (sh (n * j)))%R) /\ (forall a, (forall j, j < k -> a <> sh (L + n * j)) -> m' a = m a).
Proof.
  cbv zeta. induction k as [|k IH]; intro B; [ split; [ intros; lia | reflexivity ] |]. rewrite seq_S, flat_map_app, alone_app. destruct (IH ltac:(lia)) as [A K]. set (q := alone _ m r) in *. cbn [flat_map app plus]. rewrite !alone_cons. cbn [exec fst snd alone fold_left].
  rewrite !Nat.add_0_r. assert (E : fst q (sh (n * k)) = m (sh (n * k))) by (apply K; intros j J F; apply sh_inj in F; nia). split.
  - intros j J. destruct (Nat.eq_dec j k) as [->|N]; [ rewrite set_same; now rewrite E |]. rewrite set_other; [ apply A; lia |]. intro F. apply sh_inj in F. nia.
  - intros a N. rewrite set_other by (apply N; lia). apply K. intros j J. apply N. lia.
Qed.
Lemma columns_first r : forall q m, let m' := fst (alone (flat_map (fun j => accumulate n size (0 + n * (j - 1)) (0 + n * j)) (rev (seq 1 q))) m r) in
  m' (sh (L + 0)) = big (S q) (fun j => m (sh (L + n * j))) /\ (forall a, (forall j, a <> sh (L + n * j)) -> m' a = m a).
Proof.
  revert r. intros r q. revert r. induction q as [|q IH]; intros r m; cbv zeta.
  - split; [| reflexivity ]. cbn. rewrite Nat.mul_0_r. lra.
  - rewrite seq_S, rev_app_distr. cbn [rev app flat_map]. change (0 + n * (1 + q - 1)) with (n * (S q - 1)). change (0 + n * (1 + q)) with (n * S q). rewrite Nat.sub_succ, Nat.sub_0_r. change (accumulate n size (n * q) (n * S q)) with [Load (sh (L + n * q)); Add (sh (L + n * S q)); Store (sh (L + n * q))]. cbn [app]. rewrite !alone_cons. cbn [exec fst snd]. set (m1 := set m _ _). match goal with |- context [alone _ m1 ?r] => destruct (IH r m1) as [A K] end. cbv zeta in A, K. split.
    + rewrite A. cbn [big]. unfold m1 at 2. rewrite set_same, <- Rplus_assoc. f_equal. f_equal. apply big_ext. intros j J. apply set_other. intro F. apply sh_inj in F. nia.
    + intros a N. rewrite K by exact N. apply set_other. apply N.
Qed.
Lemma across_first r : forall l m, (forall h, In h l -> 0 < h /\ m (sh (L + h)) = 0%R) -> let m' := fst (alone (flat_map (fun h => accumulate n size 0 (0 + h)) l) m r) in
  m' (sh (L + 0)) = m (sh (L + 0)) /\ (forall a, a <> sh (L + 0) -> m' a = m a).
Proof.
  intro l. revert r. induction l as [|h l IH]; intros r m H; cbv zeta; [ split; reflexivity |]. cbn [flat_map]. change (0 + h) with h. change (accumulate n size 0 h) with [Load (sh (L + 0)); Add (sh (L + h)); Store (sh (L + 0))]. cbn [app]. rewrite !alone_cons. cbn [exec fst snd]. set (m1 := set m _ _).
  assert (H1 : forall x, In x l -> 0 < x /\ m1 (sh (L + x)) = 0%R).
  { intros x X. destruct (H x (or_intror X)) as [Y Z]. split; [ exact Y |]. unfold m1. rewrite set_other; [ exact Z |]. intro F. apply sh_inj in F. lia. }
  match goal with |- context [alone _ m1 ?r] => destruct (IH r m1 H1) as [A K] end. cbv zeta in A, K. split.
  - rewrite A. unfold m1. rewrite set_same. rewrite (proj2 (H h (or_introl eq_refl))). lra.
  - intros a N. rewrite (K a N). apply set_other. exact N.
Qed.
End First.
Lemma halves_in : forall f n h, In h (halves f n) -> 0 < h < n.
Proof.
  induction f as [|f IH]; intros n h H; [ destruct H |]. cbn [halves] in H. cbv zeta in H. destruct (Nat.eqb_spec (n / 2) 0) as [E|E]; [ destruct H |].
  pose proof (Nat.div_lt n 2 ltac:(destruct n; [ now elim E | lia ]) ltac:(lia)). destruct H as [<-|H]; [ lia |]. apply IH in H. lia.
Qed.
(* the sum that the first thread reads if it runs before all others *)
Lemma together_first n size m : 0 < n -> n < size -> (forall h, 0 < h < n -> m (sh (lut_size n size + h)) = 0%R) ->
  in_turn n (together n size) m (fsum 0) = big (div_up size n) (fun j => m (sh (n * j)) * m (sh (n * j)))%R /\ (forall i, i < lut_size n size -> in_turn n (together n size) m (sh i) = m (sh i)).
Proof.
  intros P Sz Z. set (L := lut_size n size) in *. destruct (div_up_spec size n P) as [D _]. assert (D2 : 1 < div_up size n) by nia.
  assert (W : forall t a, In a (writes (together n size t)) -> a = fsum t \/ exists i, a = sh (L + i)).
  { intros t a. unfold together. rewrite !writes_app, !in_app_iff. unfold writes. intros [H|[H|[H|H]]].
    - unfold squares in H. apply in_flat_map in H. destruct H as (i & I & H). apply in_flat_map in I. destruct I as (j & _ & I). cbn in I. destruct I as [<-|[<-|[<-|[]]]]; cbn in H; destruct H as [<-|[]] || destruct H. right. eexists. reflexivity.
    - unfold columns, accumulate in H. apply in_flat_map in H. destruct H as (i & I & H). apply in_flat_map in I. destruct I as (j & _ & I). cbn in I. destruct I as [<-|[<-|[<-|[]]]]; cbn in H; destruct H as [<-|[]] || destruct H. right. eexists. reflexivity.
    - unfold across, accumulate in H. apply in_flat_map in H. destruct H as (i & I & H). apply in_flat_map in I. destruct I as (j & _ & I). cbn in I. destruct I as [<-|[<-|[<-|[]]]]; cbn in H; destruct H as [<-|[]] || destruct H. right. eexists. reflexivity.
    - cbn in H. destruct H as [<-|[]]. now left. }
  destruct n as [|n']; [ lia |]. split.
  - rewrite in_turn_first.
    + unfold together. rewrite !alone_app. set (q0 := alone (squares (S n') size 0) m 0%R). set (q1 := alone (columns (S n') size 0) (fst q0) (snd q0)). set (q2 := alone (across (S n') size 0) (fst q1) (snd q1)).
      unfold total. rewrite !alone_cons. cbn [exec fst snd alone fold_left]. rewrite set_same. fold L.
      destruct (squares_first (S n') size P m 0%R (div_up size (S n'))) as [A0 K0]; [ unfold lut_size; lia |]. cbv zeta in A0, K0. change (alone _ m 0%R) with q0 in A0, K0. fold L in A0, K0.
      destruct (columns_first (S n') size P (snd q0) (div_up size (S n') - 1) (fst q0)) as [A1 K1]. cbv zeta in A1, K1. change (alone _ (fst q0) (snd q0)) with q1 in A1, K1. fold L in A1, K1.
      destruct (across_first (S n') size P (snd q1) (halves (S n') (S n')) (fst q1)) as [A2 K2].
      { intros h H. apply halves_in in H. fold L. split; [ lia |]. rewrite K1 by (intros j F; apply sh_inj in F; destruct j; nia). rewrite K0 by (intros j J F; apply sh_inj in F; destruct j; nia). apply Z. lia. }
      cbv zeta in A2, K2. change (alone _ (fst q1) (snd q1)) with q2 in A2, K2. fold L in A2, K2. rewrite Nat.add_0_r in A2, A1. rewrite A2, A1. replace (S (div_up size (S n') - 1)) with (div_up size (S n')) by lia. apply big_ext. intros j J. now apply A0.
    + intros t T U H. apply W in H. destruct H as [H|(i & H)]; [ apply fsum_inj in H; lia | discriminate ].
  - intros i I. assert (G : forall k, in_turn k (together (S n') size) m (sh i) = m (sh i)).
    { induction k as [|k IH]; [ reflexivity |]. rewrite in_turn_S, alone_keep; [ exact IH |]. intro H. apply W in H. destruct H as [H|(j & H)]; [ discriminate | apply sh_inj in H; lia ]. }
    apply G.
Qed.

(* a block as large as the descriptor: the first step before the first barrier, one thread after the other *)
Lemma first_halving n size h m : lut_size n size = n -> div_up size n = 1 -> 0 < h -> 2 * h = n -> forall k, k <= n ->
  let m' := in_turn k (fun t => squares n size t ++ halving n size h t) m in
  (forall t, t < k -> m' (sh (n + t)) = (m (sh t) * m (sh t) + (if t <? h then m (sh (n + (t + h))%nat) else 0))%R) /\ (forall t, k <= t -> m' (sh (n + t)) = m (sh (n + t))) /\ (forall i, i < n -> m' (sh i) = m (sh i)).
Proof.
  intros E D H N. induction k as [|k IH]; intro K; cbv zeta; [ split; [ intros; lia | split; reflexivity ] |]. rewrite in_turn_S. destruct (IH ltac:(lia)) as (A & B & C). cbv zeta in A, B, C. set (q := in_turn k _ m) in *.
  unfold squares. rewrite D. cbn [seq flat_map app]. rewrite Nat.mul_0_r. cbn [plus]. rewrite !alone_cons. cbn [exec fst snd]. rewrite E. unfold halving, accumulate. rewrite E. rewrite (C k ltac:(lia)).
  destruct (Nat.ltb_spec k h) as [L|L].
  - rewrite !alone_cons. cbn [exec fst snd alone fold_left]. rewrite set_same. rewrite (set_other q (sh (n + k)) _ (sh (n + (k + h)))) by (intro F; apply sh_inj in F; lia). rewrite (B (k + h) ltac:(lia)). split; [| split ].
    + intros t T. destruct (Nat.eq_dec t k) as [->|X]; [ rewrite set_same; now rewrite (proj2 (Nat.ltb_lt _ _) L) |]. rewrite !set_other by (intro F; apply sh_inj in F; lia). apply A. lia.
    + intros t T. rewrite !set_other by (intro F; apply sh_inj in F; lia). apply B. lia.
    + intros i I. rewrite !set_other by (intro F; apply sh_inj in F; lia). now apply C.
  - cbn [alone fold_left fst]. split; [| split ].
    + intros t T. destruct (Nat.eq_dec t k) as [->|X]; [ rewrite set_same; rewrite (proj2 (Nat.ltb_ge _ _) L); lra |]. rewrite set_other by (intro F; apply sh_inj in F; lia). apply A. lia.
    + intros t T. rewrite set_other by (intro F; apply sh_inj in F; lia). apply B. lia.
    + intros i I. rewrite set_other by (intro F; apply sh_inj in F; lia). now apply C.
Qed.
Lemma halving_step n size s m m' : 2 * s <= n -> kernel n [halving n size s] m m' ->
  (forall i, i < s -> m' (sh (lut_size n size + i)) = (m (sh (lut_size n size + i)) + m (sh (lut_size n size + (i + s))))%R) /\ (forall a, (exists i, i < lut_size n size /\ a = sh i) -> m' a = m a).
Proof.
  intros L K. apply kernel_one in K. apply phase_free in K.
  - destruct K as [A B]. split.
    + intros i I. rewrite (A i) by (unfold halving; rewrite ?(proj2 (Nat.ltb_lt _ _) I); cbn; auto; lia). unfold halving. rewrite (proj2 (Nat.ltb_lt _ _) I). unfold accumulate. alone_simp. now rewrite set_same.
    + intros a (i & I & ->). apply B. intros t T. unfold halving. destruct (t <? s); cbn; [| tauto ]. intros [F|[]]. apply sh_inj in F. lia.
  - intros t u a T U N. unfold halving. destruct (Nat.ltb_spec t s); destruct (Nat.ltb_spec u s); cbn; try tauto. intros [<-|[]] F. repeat (destruct F as [F|F]); try (apply sh_inj in F; lia); contradiction.
Qed.
Lemma total_step n size m m' : phase n (total n size) m m' -> (forall t, t < n -> m' (fsum t) = m (sh (lut_size n size))) /\ (forall i, m' (sh i) = m (sh i)).
Proof.
  intro K. apply phase_free in K.
  - destruct K as [A B]. split.
    + intros t T. rewrite (A t (fsum t) T) by (cbn; auto). unfold total. alone_simp. now rewrite set_same.
    + intro i. apply B. intros t T. cbn. intros [F|[]]. discriminate.
  - intros t u a T U N. cbn. intros [<-|[]] F. repeat (destruct F as [F|F]); try (apply fsum_inj in F; lia); try discriminate; contradiction.
Qed.
Lemma flat_single {A B : Type} (f : A -> B) l : flat_map (fun s => [f s]) l = map f l.
Proof. induction l as [|x l IH]; [ reflexivity |]. cbn [flat_map map app]. now rewrite IH. Qed.
Lemma rest_of_steps n size e m m' : n = 2 ^ S e -> kernel n (map (halving n size) (halves (n - 1) (2 ^ e)) ++ [total n size]) m m' ->
  (forall t, t < n -> m' (fsum t) = big (2 ^ e) (fun i => m (sh (lut_size n size + i)))) /\ (forall i, i < lut_size n size -> m' (sh i) = m (sh i)).
Proof.
  intros N K. assert (0 < 2 ^ e) by (apply Nat.neq_0_lt_0, Nat.pow_nonzero; lia). assert (N2 : n = 2 * 2 ^ e) by (rewrite N; reflexivity). apply kernel_app in K. destruct K as (m1 & A & B). apply kernel_one in B. apply total_step in B. destruct B as [B B'].
  replace (map (halving n size) (halves (n - 1) (2 ^ e))) with (flat_map (fun s => [halving n size s]) (halves (n - 1) (2 ^ e))) in A by (apply flat_single).
  apply (tree_any n (fun s => [halving n size s]) (fun i => sh (lut_size n size + i)) (fun a => exists i, i < lut_size n size /\ a = sh i)) in A; [| intros s x y L; now apply halving_step | lia | lia ].
  destruct A as [A A']. rewrite Nat.add_0_r in A. split.
  - intros t T. rewrite (B t T), A. apply big_ext. intros i I. rewrite reached_power; [ reflexivity | | exact I ]. pose proof (Nat.pow_gt_lin_r 2 e ltac:(lia)). lia.
  - intros i I. rewrite B'. apply A'. eauto.
Qed.
Lemma in_steps_first n size e m : n = 2 ^ S e -> lut_size n size = n -> div_up size n = 1 -> (forall i, n <= i -> m (sh i) = 0%R) ->
  exists m', kernel n (in_steps n size) m m' /\ (forall t, t < n -> m' (fsum t) = big (2 ^ e) (fun i => m (sh i) * m (sh i))%R) /\ (forall i, i < n -> m' (sh i) = m (sh i)).
Proof.
  intros N E D Z. assert (0 < 2 ^ e) by (apply Nat.neq_0_lt_0, Nat.pow_nonzero; lia). assert (N2 : n = 2 * 2 ^ e) by (rewrite N; reflexivity).
  assert (Hv : halves n n = 2 ^ e :: halves (n - 1) (2 ^ e)).
  { assert (Hn : n / 2 = 2 ^ e) by (rewrite N2; apply half_double). assert (F : n = S (n - 1)) by lia. rewrite F at 1. cbn [halves]. rewrite Hn. cbv zeta. rewrite (proj2 (Nat.eqb_neq (2 ^ e) 0)) by lia. reflexivity. }
  unfold in_steps. rewrite Hv. cbn [app].
  destruct (first_halving n size (2 ^ e) m E D ltac:(lia) ltac:(lia) n (le_n n)) as (A & _ & C). cbv zeta in A, C.
  pose proof (phase_in_turn n (fun t => squares n size t ++ halving n size (2 ^ e) t) m) as Ph. set (m1 := in_turn n _ m) in *.
  destruct (kernel_exists n (map (halving n size) (halves (n - 1) (2 ^ e)) ++ [total n size]) m1) as (m' & K). exists m'. split; [ econstructor; eassumption |].
  apply (rest_of_steps n size e m1 m' N) in K. destruct K as [K K']. rewrite E in K, K'. split.
  - intros t T. rewrite (K t T). apply big_ext. intros i I. rewrite (A i) by lia. rewrite (proj2 (Nat.ltb_lt _ _) I). rewrite (Z (n + (i + 2 ^ e))) by lia. lra.
  - intros i I. rewrite (K' i I). now apply C.
Qed.

(* two votes, the second one for bin b *)
Definition pair_votes (b : nat) : option (list (option Z)) := Some [Some 0%Z; Some (Z.of_nat b)].
Lemma pair_starting size b i : 0 < b -> starting size 0 (pair_votes b) i = (if (i =? 0) || (i =? b) then 1 else 0)%R.
Proof.
  intro B. unfold starting, pair_votes. cbn [counted_votes]. rewrite !ballots_cons. unfold hit. cbn [ballots filter length INR]. destruct (Nat.eqb_spec i 0); destruct (Nat.eqb_spec i b); destruct (Z.eqb_spec 0 (Z.of_nat i)); destruct (Z.eqb_spec (Z.of_nat b) (Z.of_nat i)); destruct (i <? size); cbn [orb]; try lia; lra.
Qed.
Lemma pair_fits size b : 0 < size -> b < size -> fits size (pair_votes b).
Proof. intros S B l c E. injection E as <-. cbn. intros [H|[H|[]]]; injection H; lia. Qed.
Lemma big_first k (f : nat -> R) : 0 < k -> (forall i, 0 < i -> i < k -> f i = 0%R) -> big k f = f 0.
Proof. intros K Z. destruct k as [|k]; [ lia |]. rewrite big_front. rewrite (big_0 k); [ lra |]. intros i I. apply Z; lia. Qed.
Lemma output_wrong n m : 0 < n -> m (fsum 0) = 1%R -> m (sh 0) = 1%R -> output n true m 0 = Some 1%R.
Proof. intros P A B. unfold output. rewrite Nat.mod_0_l by lia. rewrite A, B. destruct (Rle_dec 1 0); [ lra |]. f_equal. rewrite sqrt_1. lra. Qed.
Lemma races_long n size : 1 < n -> n < size -> ((lut_size n size =? 32) && (n =? 32) = false) -> exists res, gpu_desc n size 0 (pair_votes 1) true res /\ res 0 = Some 1%R.
Proof.
  intros P S Q. destruct (div_up_spec size n ltac:(lia)) as [D _]. assert (D2 : 1 < div_up size n) by nia. destruct (kernel_exists n (histogram n size 0 (pair_votes 1)) (fun _ => 0%R)) as (m1 & K).
  pose proof (histogram_step n size 0 (pair_votes 1) _ m1 ltac:(lia) K) as (A & B & _).
  destruct (together_first n size m1 ltac:(lia) S) as [F G].
  { intros h H. rewrite B by (unfold lut_size; lia). rewrite (counted_outside size) by (try apply pair_fits; unfold lut_size; lia). cbn. lra. }
  exists (output n true (in_turn n (together n size) m1)). split.
  - exists (fun _ => 0%R), (in_turn n (together n size) m1). split; [| reflexivity ]. eapply kernel_join; [ exact K |]. unfold normalization. rewrite Q. rewrite (proj2 (Nat.ltb_lt n (lut_size n size))) by (unfold lut_size; nia). econstructor; [ apply phase_in_turn | constructor ].
  - apply output_wrong; [ lia | |].
    + rewrite F. rewrite big_first; [| lia |].
      * rewrite Nat.mul_0_r. rewrite A by nia. rewrite pair_starting by lia. cbn [Nat.eqb orb]. lra.
      * intros j J1 J2. rewrite A by nia. rewrite pair_starting by lia. rewrite (proj2 (Nat.eqb_neq (n * j) 0)), (proj2 (Nat.eqb_neq (n * j) 1)) by nia. cbn [orb]. lra.
    + rewrite G by (unfold lut_size; nia). rewrite A by nia. rewrite pair_starting by lia. reflexivity.
Qed.
Lemma races_single n size e : n = 2 ^ S e -> 5 <= e -> 2 ^ e < size <= n -> exists res, gpu_desc n size 0 (pair_votes (2 ^ e)) true res /\ res 0 = Some 1%R.
Proof.
  intros N E5 S. assert (32 <= 2 ^ e) by (change 32 with (2 ^ 5); apply Nat.pow_le_mono_r; lia). assert (N2 : n = 2 * 2 ^ e) by (rewrite N; reflexivity).
  assert (D : div_up size n = 1) by (unfold div_up; symmetry; apply (Nat.div_unique _ n 1 (size - 1)); lia). assert (L : lut_size n size = n) by (unfold lut_size; rewrite D; lia).
  destruct (kernel_exists n (histogram n size 0 (pair_votes (2 ^ e))) (fun _ => 0%R)) as (m1 & K). pose proof (histogram_step n size 0 (pair_votes (2 ^ e)) _ m1 ltac:(lia) K) as (A & B & _). rewrite D, Nat.mul_1_r in A, B.
  destruct (in_steps_first n size e m1 N L D) as (m' & K' & F & G).
  { intros i I. rewrite B by exact I. rewrite (counted_outside size) by (try apply pair_fits; lia). cbn. lra. }
  exists (output n true m'). split.
  - exists (fun _ => 0%R), m'. split; [| reflexivity ]. eapply kernel_join; [ exact K |]. unfold normalization. rewrite L. rewrite (proj2 (Nat.eqb_neq n 32)) by lia. rewrite Nat.ltb_irrefl. exact K'.
  - apply output_wrong; [ lia | |].
    + rewrite F by lia. rewrite big_first; [| lia |].
      * rewrite A by lia. rewrite pair_starting by lia. cbn [Nat.eqb orb]. lra.
      * intros j J1 J2. rewrite A by lia. rewrite pair_starting by lia. rewrite (proj2 (Nat.eqb_neq j 0)), (proj2 (Nat.eqb_neq j (2 ^ e))) by lia. cbn [orb]. lra.
    + rewrite G by lia. rewrite A by lia. rewrite pair_starting by lia. reflexivity.
Qed.

(* the processor *)
Lemma fold_big (f : nat -> R) : forall k s, fold_right (fun i a => f i + a)%R 0%R (seq s k) = big k (fun i => f (s + i)%nat).
Proof. induction k as [|k IH]; intro s; [ reflexivity |]. rewrite big_front. cbn [seq fold_right]. rewrite IH, Nat.add_0_r. f_equal. apply big_ext. intros i _. now rewrite Nat.add_succ_r. Qed.
Lemma length_norm size v : length_of size v = sqrt (norm2 size v).
Proof. unfold length_of, norm2. now rewrite (fold_big (fun i => v i * v i)%R). Qed.
Lemma bin_seen cf key pt b : (0 <= b)%Z -> match bin cf key pt with Some c => Z.eqb c b | None => false end = seen (outer cf) (lut cf) key b pt.
Proof.
  intro B. unfold bin, seen. cbv zeta. replace (fst pt - fst key + outer cf - outer cf)%Z with (fst pt - fst key)%Z by lia. replace (snd pt - snd key + outer cf - outer cf)%Z with (snd pt - snd key)%Z by lia.
  set (dy := (fst pt - fst key)%Z). set (dx := (snd pt - snd key)%Z).
  destruct (Z.eqb_spec b (-1)); [ lia |]. cbn [negb]. rewrite andb_true_r.
  destruct ((dy + outer cf <? 0)%Z || (2 * outer cf + 1 <=? dy + outer cf)%Z || (dx + outer cf <? 0)%Z || (2 * outer cf + 1 <=? dx + outer cf)%Z) eqn:O.
  - symmetry. rewrite !orb_true_iff, !Z.ltb_lt, !Z.leb_le in O. apply not_true_iff_false. rewrite !andb_true_iff, !Z.leb_le. lia.
  - rewrite !orb_false_iff, !Z.ltb_ge, !Z.leb_gt in O. rewrite (proj2 (Z.leb_le (Z.abs dy) (outer cf))) by lia. rewrite (proj2 (Z.leb_le (Z.abs dx) (outer cf))) by lia. cbn [andb].
    destruct (Z.eqb_spec (lut cf dy dx) (-1)) as [E|E]; [| reflexivity ]. rewrite E. symmetry. apply Z.eqb_neq. lia.
Qed.
Lemma ballots_around cf key pts i : Z.of_nat (ballots i (map (bin cf key) pts)) = around (outer cf) (lut cf) pts key (Z.of_nat i).
Proof.
  unfold ballots, around, count. f_equal. induction pts as [|p l IH]; [ reflexivity |]. cbn [map filter].
  rewrite <- (bin_seen cf key p (Z.of_nat i)) by lia. destruct (match bin cf key p with Some b => (b =? Z.of_nat i)%Z | None => false end); cbn [length]; now rewrite IH.
Qed.
Lemma counted_share cf s key i : INR (counted_votes i (kernel_votes cf s key)) = IZR (share cf s key (Z.of_nat i)).
Proof.
  unfold kernel_votes, share. destruct (near cf s key); cbn [counted_votes]; [| reflexivity ]. rewrite INR_IZR_INZ. f_equal. apply ballots_around.
Qed.
Lemma votes_fit cf s key size : (forall dy dx, (lut cf dy dx < Z.of_nat size)%Z) -> fits size (kernel_votes cf s key).
Proof.
  intros H l b E I. unfold kernel_votes in E. destruct (near cf s key); [| discriminate ]. injection E as <-. apply in_map_iff in I. destruct I as (p & E & _).
  unfold bin in E. cbv zeta in E. destruct (_ || _ || _ || _); [ discriminate |]. destruct (Z.eqb _ _); [ discriminate |]. injection E as <-. apply H.
Qed.
Lemma first_value_pos size nonzero : (0 <= first_value size nonzero)%R /\ (nonzero = true -> 1 / 2 <= first_value size nonzero)%R.
Proof.
  unfold first_value. destruct nonzero; [| split; [ lra | discriminate ]]. assert (H := Rmax_r (10 / INR size) (1 / 2)). split; [ lra | intros _; lra ].
Qed.
Lemma norm2_ge size v j : j < size -> (v j * v j <= norm2 size v)%R.
Proof.
  intro J. unfold norm2. induction size as [|k IH]; [ lia |]. cbn [big]. assert (P := norm2_pos k v). unfold norm2 in P.
  destruct (Nat.eq_dec j k) as [->|N]; [ lra |]. assert (j < k) by lia. assert (0 <= v k * v k)%R by nra. specialize (IH H). lra.
Qed.
Lemma direction_cpu size v i j : j < size -> (1 / 2 <= v j)%R -> direction size v i = Some (cpu_norm size v i).
Proof.
  intros J V. assert (G := norm2_ge size v j J). assert (Q : (1 / 4 <= norm2 size v)%R) by nra. unfold direction, cpu_norm. rewrite length_norm.
  assert (S : (1 / 2 <= sqrt (norm2 size v))%R). { rewrite <- (sqrt_square (1 / 2)) by lra. apply sqrt_le_1_alt. lra. }
  destruct (Req_EM_T (norm2 size v) 0); [ lra |]. destruct (Rlt_dec (1 / 100000) (sqrt (norm2 size v))); [ reflexivity | lra ].
Qed.
Lemma cpu_norm_ext size v w i : (forall j, j < size -> v j = w j) -> i < size -> cpu_norm size v i = cpu_norm size w i.
Proof.
  intros H I. unfold cpu_norm. rewrite !length_norm. assert (E : norm2 size v = norm2 size w) by (apply big_ext; intros j J; now rewrite H). now rewrite E, (H i I).
Qed.
Lemma cpu_desc_ext size nonzero norm d e i : (forall j, j < size -> d (Z.of_nat j) = e (Z.of_nat j)) -> i < size -> cpu_desc size nonzero norm d i = cpu_desc size nonzero norm e i.
Proof. intros H I. unfold cpu_desc. cbv zeta. destruct norm; [ apply cpu_norm_ext; [ intros j J; now rewrite H | exact I ] | now rewrite H ]. Qed.
Lemma share_pos cf s key b : (0 <= share cf s key b)%Z.
Proof. unfold share. destruct (near cf s key); [ unfold around, count; lia | lia ]. Qed.

Definition nonempty (size : nat) (nonzero : bool) (d : bins) : Prop := nonzero = true \/ exists j, j < size /\ d (Z.of_nat j) <> 0%Z.
Lemma nonempty_half size nonzero cf s key : 0 < size -> nonempty size nonzero (share cf s key) -> exists j, j < size /\ (1 / 2 <= first_value size nonzero + IZR (share cf s key (Z.of_nat j)))%R.
Proof.
  intros P [N|(j & J & N)]; destruct (first_value_pos size nonzero) as (A & B).
  - exists 0. split; [ exact P |]. specialize (B N). assert (0 <= IZR (share cf s key (Z.of_nat 0)))%R by (apply IZR_le, share_pos). lra.
  - exists j. split; [ exact J |]. assert (1 <= IZR (share cf s key (Z.of_nat j)))%R by (apply IZR_le; assert (H := share_pos cf s key (Z.of_nat j)); lia). lra.
Qed.
Lemma same_direction cf s key size nonzero i : 0 < size -> i < size -> nonempty size nonzero (share cf s key) ->
  direction size (fun j => first_value size nonzero + INR (counted_votes j (kernel_votes cf s key)))%R i = Some (cpu_desc size nonzero true (share cf s key) i).
Proof.
  intros P I N. destruct (nonempty_half _ _ _ _ _ P N) as (j & J & H).
  rewrite (direction_ext size _ (fun j => first_value size nonzero + IZR (share cf s key (Z.of_nat j)))%R i) by (intros; rewrite ?counted_share; auto). exact (direction_cpu size _ i j J H).
Qed.
Lemma empty_direction cf s key size i : i < size -> (forall j, j < size -> share cf s key (Z.of_nat j) = 0%Z) ->
  direction size (fun j => first_value size false + INR (counted_votes j (kernel_votes cf s key)))%R i = None.
Proof.
  intros I Z0. unfold direction. assert (E : norm2 size (fun j => first_value size false + INR (counted_votes j (kernel_votes cf s key)))%R = 0%R).
  { unfold norm2. rewrite (big_ext size _ (fun _ => 0%R)); [ clear; induction size; cbn [big]; lra |]. intros j J. rewrite counted_share, Z0 by exact J. cbn. ring. }
  destruct (Req_EM_T _ 0); [ reflexivity | contradiction ].
Qed.
Lemma empty_cpu size d i : (forall j, j < size -> d (Z.of_nat j) = 0%Z) -> cpu_desc size false true d i = sqrt (1 / INR size).
Proof.
  intros Z0. unfold cpu_desc, cpu_norm. cbv zeta. rewrite length_norm.
  assert (E : norm2 size (fun j => first_value size false + IZR (d (Z.of_nat j)))%R = 0%R).
  { unfold norm2. rewrite (big_ext size _ (fun _ => 0%R)); [ clear; induction size; cbn [big]; lra |]. intros j J. rewrite Z0 by exact J. cbn. ring. }
  rewrite E, sqrt_0. destruct (Rlt_dec (1 / 100000) 0); [ lra | reflexivity ].
Qed.

(* there is a run for every block *)
Definition in_turns (n : nat) (ps : list program) (m : memory) : memory := fold_left (fun m p => in_turn n p m) ps m.
Lemma kernel_in_turns n : forall ps m, kernel n ps m (in_turns n ps m).
Proof. induction ps as [|p ps IH]; intro m; [ constructor |]. cbn. econstructor; [ apply phase_in_turn | apply IH ]. Qed.
Definition turn_desc (n size : nat) (init : R) (votes : option (list (option Z))) (norm : bool) : nat -> option R :=
  output n norm (in_turns n (histogram n size init votes ++ if norm then normalization n size else []) (fun _ => 0%R)).
Lemma turn_desc_ok n size init votes norm : gpu_desc n size init votes norm (turn_desc n size init votes norm).
Proof. eexists. eexists. split; [ apply kernel_in_turns | reflexivity ]. Qed.
Lemma gpu_map_exists cf s n size nonzero norm : exists res, gpu_map cf s n size nonzero norm res.
Proof. exists (fun p => turn_desc n size (first_value size nonzero) (kernel_votes cf s p) norm). intros y x _ _. apply turn_desc_ok. Qed.
Lemma gpu_map_with cf s n size nonzero norm y x r : gpu_desc n size (first_value size nonzero) (kernel_votes cf s (y, x)) norm r -> exists res, gpu_map cf s n size nonzero norm res /\ res (y, x) = r.
Proof.
  intro G. exists (fun p => if same p (y, x) then r else turn_desc n size (first_value size nonzero) (kernel_votes cf s p) norm). split.
  - intros y' x' _ _. destruct (same (y', x') (y, x)) eqn:E; [| apply turn_desc_ok ]. apply same_spec in E. now rewrite E.
  - replace (same (y, x) (y, x)) with true; [ reflexivity |]. symmetry. now apply same_spec.
Qed.

(* two contour points left and right of the keypoint *)
Definition pair_config (b : nat) : config := {| outer := 1; lut := fun dy dx => if (dx =? -1)%Z then 0%Z else if (dx =? 1)%Z then Z.of_nat b else (-1)%Z; ShapeContext.kernel := fun _ _ => true |}.
Definition pair_shape : shape := {| rows := 3; cols := 3; mask := fun y x => ((y =? 1) && negb (x =? 1))%Z; contour := [(1, 0); (1, 2)]%Z |}.
Lemma pair_kernel b : kernel_votes (pair_config b) pair_shape (1, 1)%Z = pair_votes b.
Proof. unfold kernel_votes. replace (near _ _ _) with true by reflexivity. cbn [pair_shape contour map]. unfold bin, pair_config. cbn -[Z.of_nat]. destruct (Z.eqb_spec (Z.of_nat b) (-1)); [ lia | reflexivity ]. Qed.
Lemma pair_lut b size : 0 < size -> b < size -> forall dy dx, (-1 <= lut (pair_config b) dy dx < Z.of_nat size)%Z.
Proof. intros P B dy dx. cbn -[Z.of_nat]. destruct (dx =? -1)%Z; [ lia |]. destruct (dx =? 1)%Z; lia. Qed.
Lemma pair_share b j : 0 < b -> share (pair_config b) pair_shape (1, 1)%Z (Z.of_nat j) = if (j =? 0) || (j =? b) then 1%Z else 0%Z.
Proof.
  intro B. apply eq_IZR. rewrite <- counted_share, pair_kernel. assert (H := pair_starting 0 b j B). unfold starting in H. replace (j <? 0) with false in H by (symmetry; apply Nat.ltb_ge; lia).
  rewrite Rplus_0_l in H. rewrite H. destruct (_ || _); reflexivity.
Qed.
Lemma pair_cpu b size : 0 < b -> b < size -> cpu_desc size false true (share (pair_config b) pair_shape (1, 1)%Z) 0 = sqrt (1 / 2).
Proof.
  intros B S0. unfold cpu_desc, cpu_norm. cbv zeta. rewrite length_norm.
  set (f := fun j => if (j =? 0) || (j =? b) then 1%R else 0%R).
  assert (V : forall j, (first_value size false + IZR (share (pair_config b) pair_shape (1, 1)%Z (Z.of_nat j)))%R = f j).
  { intro j. rewrite pair_share by exact B. unfold f. cbn [first_value]. destruct (_ || _); lra. }
  assert (E : norm2 size (fun j => first_value size false + IZR (share (pair_config b) pair_shape (1, 1)%Z (Z.of_nat j)))%R = 2%R).
  { unfold norm2. rewrite (big_ext size _ (fun j => f j * f j)%R) by (intros; now rewrite !V).
    replace size with (S b + (size - S b)) by lia. induction (size - S b) as [|k IH].
    - rewrite Nat.add_0_r. cbn [big]. rewrite (big_first b (fun j => f j * f j)%R B).
      + unfold f. cbn [Nat.eqb orb]. rewrite Nat.eqb_refl, orb_true_r. lra.
      + intros i I1 I2. unfold f. rewrite (proj2 (Nat.eqb_neq i 0)), (proj2 (Nat.eqb_neq i b)) by lia. cbn. lra.
    - rewrite Nat.add_succ_r. cbn [big]. rewrite IH. unfold f. rewrite (proj2 (Nat.eqb_neq (S b + k) 0)), (proj2 (Nat.eqb_neq (S b + k) b)) by lia. cbn [orb]. lra. }
  rewrite E, V. unfold f. cbn [Nat.eqb orb]. destruct (Rlt_dec (1 / 100000) (sqrt 2)) as [_|N].
  - rewrite sqrt_div_alt by lra. now rewrite sqrt_1.
  - exfalso. apply N. assert (H : (1 <= sqrt 2)%R) by (rewrite <- sqrt_1 at 1; apply sqrt_le_1_alt; lra). lra.
Qed.
Lemma half_below : (sqrt (1 / 2) < 1)%R.
Proof. rewrite <- sqrt_1 at 2. apply sqrt_lt_1_alt. lra. Qed.

(* shared memory *)
Lemma lut_size_ge n size : 0 < n -> size <= lut_size n size.
Proof. intro P. unfold lut_size. assert (H := div_up_spec size n P). lia. Qed.

Lemma given_double size : shared_given size = lut_size 32 size + lut_size 32 size.
Proof. unfold shared_given, lut_size. lia. Qed.
Lemma within_three i a b c k B : a < B -> b < B -> c < B -> (In i [Load (sh a); Add (sh b); Store (sh c)] \/ In i [Load (sh a); Mul (sh b); Store (sh c)]) -> mentions i (sh k) -> k < B.
Proof.
  intros A0 B0 C0 [[<-|[<-|[<-|[]]]]|[<-|[<-|[<-|[]]]]] M; cbn in M; apply sh_inj in M; lia.
Qed.
Lemma shared_fits size init votes (norm : bool) (p : program) t i k : 0 < size -> fits size votes -> In p (histogram 32 size init votes ++ if norm then normalization 32 size else []) -> t < 32 -> In i (p t) -> mentions i (sh k) -> k < shared_given size.
Proof.
  intros P F I T J M. assert (L := lut_size_ge 32 size ltac:(lia)). assert (G := given_double size). assert (L32 : lut_size 32 size = 32 * div_up size 32) by (unfold lut_size; lia).
  assert (D0 : 0 < div_up size 32) by (destruct (div_up size 32); lia).
  apply in_app_iff in I. destruct I as [I|I].
  - destruct I as [<-|I].
    + unfold fill in J. apply in_flat_map in J. destruct J as (j & S1 & [<-|[<-|[]]]); [ destruct M |]. apply in_seq in S1. cbn in M. apply sh_inj in M. nia.
    + destruct votes as [l|]; [| destruct I ]. destruct I as [<-|[]]. unfold ballot in J. apply in_flat_map in J. destruct J as (j & _ & J).
      destruct (nth (32 * j + t) l None) as [b|] eqn:N; [| destruct J ]. destruct (0 <=? b)%Z eqn:B; [| destruct J ]. destruct J as [<-|[]]. cbn in M. apply sh_inj in M.
      assert (F' := F l b eq_refl). assert (I : In (Some b) l). { rewrite <- N. apply nth_In. destruct (Nat.lt_ge_cases (32 * j + t) (length l)) as [|H]; [ assumption |]. rewrite nth_overflow in N by exact H. discriminate. }
      specialize (F' I). apply Z.leb_le in B. lia.
  - destruct norm; [| destruct I ]. unfold normalization in I. destruct ((lut_size 32 size =? 32) && (32 =? 32)) eqn:E1; [| destruct (32 <? lut_size 32 size) eqn:E2 ].
    + unfold by_shuffles in I. destruct I as [<-|I].
      { destruct J as [<-|[<-|[<-|[]]]]; cbn in M; [ apply sh_inj in M; lia | apply sh_inj in M; lia | exfalso; exact (lane_sh _ _ _ M) ]. }
      repeat (destruct I as [<-|I]; [ unfold shuffle in J; destruct J as [<-|[<-|[<-|[]]]]; exfalso; exact (lane_sh _ _ _ M) |]).
      destruct I as [<-|[]]. destruct J as [<-|[<-|[]]]; [ exfalso; exact (lane_sh _ _ _ M) |]. cbn in M. unfold fsum, sh in M. apply pair_equal_spec in M. lia.
    + apply Nat.ltb_lt in E2. destruct I as [<-|[]]. unfold together in J. rewrite !in_app_iff in J. destruct J as [J|[J|[J|J]]].
      * unfold squares in J. apply in_flat_map in J. destruct J as (j & S1 & J). apply in_seq in S1. apply (within_three i (32 * j + t) (32 * j + t) (lut_size 32 size + (32 * j + t)) k); try nia. now right. exact M.
      * unfold columns in J. apply in_flat_map in J. destruct J as (j & S1 & J). rewrite <- in_rev in S1. apply in_seq in S1. unfold accumulate in J.
        apply (within_three i (lut_size 32 size + (t + 32 * (j - 1))) (lut_size 32 size + (t + 32 * j)) (lut_size 32 size + (t + 32 * (j - 1))) k); try nia. now left. exact M.
      * unfold across in J. apply in_flat_map in J. destruct J as (h & S1 & J). apply halves_in in S1. unfold accumulate in J.
        assert (64 <= lut_size 32 size) by (destruct (div_up size 32) as [|[|q]]; lia).
        apply (within_three i (lut_size 32 size + t) (lut_size 32 size + (t + h)) (lut_size 32 size + t) k); try lia. now left. exact M.
      * unfold total in J. destruct J as [<-|[<-|[]]]; unfold mentions in M; [ apply sh_inj in M; lia |]. unfold fsum, sh in M. apply pair_equal_spec in M. lia.
    + apply Nat.ltb_ge in E2. exfalso. rewrite andb_true_r in E1. apply Nat.eqb_neq in E1. lia.
Qed.
Lemma shared_outside n size init votes : 0 < size -> size <= 32 -> 64 < n -> exists p t i k, In p (histogram n size init votes) /\ t < n /\ In i (p t) /\ mentions i (sh k) /\ shared_given size <= k.
Proof.
  intros P S0 N. exists (fill n size (fun _ => init)), (n - 1), (Store (sh (n - 1))), (n - 1). split; [ now left |]. split; [ lia |]. split.
  - unfold fill. apply in_flat_map. exists 0. split; [ apply in_seq; assert (H := div_up_spec size n ltac:(lia)); destruct (div_up size n); lia |]. replace (n * 0 + (n - 1)) with (n - 1) by lia. right. now left.
  - split; [ reflexivity |]. rewrite given_double. unfold lut_size. rewrite div_up_one by lia. lia.
Qed.
Lemma shared_outside_norm size : 0 < size -> size <= 32 -> exists p t i k, In p (normalization 64 size) /\ t < 64 /\ In i (p t) /\ mentions i (sh k) /\ shared_given size <= k.
Proof.
  intros P S0. assert (D : div_up size 64 = 1). { assert (H := div_up_spec size 64 ltac:(lia)). unfold div_up in *. destruct ((size + 64 - 1) / 64) as [|[|q]] eqn:E; [ lia | reflexivity |]. assert (E' := Nat.div_mod (size + 64 - 1) 64 ltac:(lia)). rewrite E in E'. lia. }
  assert (L : lut_size 64 size = 64) by (unfold lut_size; rewrite D; reflexivity).
  unfold normalization. rewrite L. cbn [Nat.eqb andb Nat.ltb Nat.leb]. unfold in_steps. change (halves 64 64) with [32; 16; 8; 4; 2; 1]. cbn [app].
  eexists. exists 0. exists (Store (sh (lut_size 64 size + 0))), (lut_size 64 size + 0). split; [ left; reflexivity |]. split; [ lia |]. split.
  - apply in_app_iff. left. unfold squares. rewrite D. cbn [seq flat_map app]. right. right. left. reflexivity.
  - split; [ reflexivity |]. rewrite given_double, L. unfold lut_size. rewrite div_up_one by lia. lia.
Qed.

(* roundings *)
Lemma roundings_agree q : (forall z, ~ (q == inject_Z z + (1 # 2)))%Q -> nearest q = away q.
Proof.
  intro H. destruct (nearest_bounds q) as (A & B). destruct (away_bounds q) as (C & D).
  assert (H1 := H (nearest q)). assert (H2 := H (away q)). assert (H3 := H (nearest q - 1)%Z). assert (H4 := H (away q - 1)%Z). unfold Z.sub in H3, H4. rewrite inject_Z_plus in H3, H4. change (inject_Z (-(1))) with (-(1))%Q in H3, H4.
  assert (S1 : (inject_Z (nearest q) < inject_Z (away q) + 1)%Q) by (apply Qnot_le_lt; intro; (apply H1 || apply H3 || apply H2); Lqa.lra).
  assert (S2 : (inject_Z (away q) < inject_Z (nearest q) + 1)%Q) by (apply Qnot_le_lt; intro; (apply H2 || apply H1); Lqa.lra).
  change 1%Q with (inject_Z 1) in S1, S2. rewrite <- inject_Z_plus in S1, S2. apply lt_inj in S1, S2. lia.
Qed.
Lemma inject_minus a b : (inject_Z a - inject_Z b)%Q = inject_Z (a - b).
Proof. unfold Qminus, Qplus, Qopp, inject_Z. cbn [Qnum Qden]. f_equal. lia. Qed.
Lemma away_int n : away (inject_Z n) = n.
Proof. rewrite <- roundings_agree; [ apply nearest_int |]. intros z H. unfold Qeq in H. cbn in H. lia. Qed.
Lemma lookup_pixel cf r c pt : lookup_between cf nearest (at_pixel r c) pt = bin cf (r, c) pt /\ lookup_between cf away (at_pixel r c) pt = bin cf (r, c) pt.
Proof. unfold lookup_between, bin. cbn [kx ky at_pixel]. rewrite !inject_minus, !nearest_int, !away_int. split; reflexivity. Qed.
