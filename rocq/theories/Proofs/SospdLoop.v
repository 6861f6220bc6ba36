From Coq Require Import ZArith List Bool Lia.
From Verif Require Import Lib.Grid Spec.Clique Proofs.Flow Proofs.FlowCut Proofs.SubmodularNormal Proofs.Sospd Model.Sospd Spec.Sospd.
Import ListNotations.
Open Scope Z_scope.

Lemma clip_ok n l : 0 < n -> 0 <= clip n l < n /\ (0 <= l < n -> clip n l = l).
Proof. intros Hn. unfold clip. cbv zeta. destruct (Z.ltb_spec l 0), (Z.leb_spec n 0), (Z.leb_spec n l); split; intros; try lia; destruct (Z.leb_spec n l); lia. Qed.
Lemma differs_ok n x y : differs n x y = true <-> exists i, 0 <= i < n /\ x i <> y i.
Proof.
  unfold differs. rewrite existsb_exists. split; intros (i & A & B); exists i.
  - apply in_zrange in A. destruct (Z.eqb_spec (x i) (y i)); [discriminate|]. split; [lia|assumption].
  - split; [apply in_zrange; lia|]. destruct (Z.eqb_spec (x i) (y i)); [contradiction|reflexivity].
Qed.
(* whatever keeps an invariant and never raises the energy, Solve does too *)
Lemma solve_ok e propose round (I : sp -> Prop) : 0 < nl e -> (forall fus st, I st -> (forall i, 0 <= fus i < nl e) -> exists st', round fus st = Some st' /\ I st' /\ value e (lab st') <= value e (lab st)) ->
  forall n iter st, I st -> exists iter' st', solve n e propose round iter st = Some (iter', st') /\ I st' /\ value e (lab st') <= value e (lab st) /\ iter <= iter' <= iter + Z.of_nat n /\
  (iter' < iter + Z.of_nat n -> forall i, 0 <= i < nv e -> lab st' i = clip (nl e) (propose iter' st' i)).
Proof.
  intros Hl R. induction n as [|n IH]; intros iter st HI.
  - exists iter, st. split; [reflexivity|]. split; [exact HI|]. split; [lia|]. split; [lia|intros; lia].
  - cbn [solve]. set (fus := fun i => clip (nl e) (propose iter st i)). destruct (differs (nv e) (lab st) fus) eqn:E; cbn [negb].
    + destruct (R fus st HI) as (st1 & E1 & I1 & V1); [intros i; apply clip_ok; exact Hl|]. rewrite E1. destruct (IH (iter + 1) st1 I1) as (it & st' & A & B & C & D & F). exists it, st'. split; [exact A|]. split; [exact B|]. split; [lia|]. split; [lia|]. intros H. apply F. lia.
    + exists iter, st. split; [reflexivity|]. split; [exact HI|]. split; [lia|]. split; [lia|]. intros _ i Hi. destruct (Z.eq_dec (lab st i) (fus i)) as [X|X]; [exact X|]. assert (Y : differs (nv e) (lab st) fus = true) by (apply differs_ok; exists i; split; assumption). congruence.
Qed.

(* proposals *)
Lemma alpha_ok n iter l : 0 < n -> 0 <= iter -> 0 <= l < n -> 0 <= alpha_label iter n < n /\ exists k, 0 <= k < n /\ alpha_label (iter + k) n = l.
Proof.
  intros Hn Hi Hl. unfold alpha_label. split; [apply Z.rem_bound_pos; lia|]. exists ((l - iter) mod n). assert (B := Z.mod_pos_bound (l - iter) n Hn). split; [exact B|]. rewrite Z.rem_mod_nonneg by lia.
  rewrite Zplus_mod_idemp_r. replace (iter + (l - iter)) with l by lia. apply Z.mod_small. exact Hl.
Qed.
Definition rise (h : Z -> Z -> Z) (n : Z) (labels : Z -> Z) (l : Z) : Z := total (Z.to_nat n) (fun i => Z.max 0 (h i (labels i) - h i l)).
Lemma s_capacity_ok h n labels l : s_capacity h n labels l = rise h n labels l.
Proof.
  unfold s_capacity, rise, zrange. rewrite (SubmodularLinear.fold_left_ext _ (fun s i => s + Z.max 0 (h i (labels i) - h i l))); [rewrite fold_total; lia|]. intros a i. cbv zeta. destruct (Z.ltb_spec 0 (h i (labels i) - h i l)); lia.
Qed.
Lemma rise_nonneg h n labels l : 0 <= rise h n labels l.
Proof. unfold rise. assert (X := total_le (Z.to_nat n) (fun _ => 0) (fun i => Z.max 0 (h i (labels i) - h i l))). rewrite (total_zero (Z.to_nat n) (fun _ => 0)) in X by reflexivity. apply X. intros j _. apply Z.le_max_l. Qed.
Lemma height_label_ok h n m labels : 0 < m -> 0 <= height_label h n m labels < m /\ forall l, 0 <= l < m -> rise h n labels l <= rise h n labels (height_label h n m labels).
Proof.
  intros Hm. unfold height_label, zrange.
  assert (G : forall k, (k <= Z.to_nat m)%nat -> let r := fold_left (fun st l => if fst st <? s_capacity h n labels l then (s_capacity h n labels l, l) else st) (zseq 0 k) (0, 0) in
    0 <= snd r < m /\ fst r <= rise h n labels (snd r) /\ 0 <= fst r /\ forall l, 0 <= l < Z.of_nat k -> rise h n labels l <= fst r).
  { induction k as [|k IH]; intros Hk; cbv zeta in *.
    - replace (zseq 0 0) with (@nil Z) by reflexivity. cbn [fold_left fst snd]. split; [lia|]. split; [apply rise_nonneg|]. split; [lia|intros; lia].
    - rewrite zseq_last, fold_left_app. cbn [fold_left]. rewrite Z.add_0_l. destruct IH as (A & B & C & D); [lia|]. set (r := fold_left _ _ _) in *. clearbody r. rewrite s_capacity_ok. destruct (Z.ltb_spec (fst r) (rise h n labels (Z.of_nat k))); cbn [fst snd].
      + split; [lia|]. split; [lia|]. split; [lia|]. intros l Hl. destruct (Z.eq_dec l (Z.of_nat k)) as [->|]; [lia|specialize (D l ltac:(lia)); lia].
      + split; [exact A|]. split; [exact B|]. split; [exact C|]. intros l Hl. destruct (Z.eq_dec l (Z.of_nat k)) as [->|]; [lia|apply D; lia]. }
  destruct (G (Z.to_nat m) ltac:(lia)) as (A & B & C & D). cbv zeta in *. split; [exact A|]. intros l Hl. specialize (D l ltac:(lia)). lia.
Qed.
