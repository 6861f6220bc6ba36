From Coq Require Import ZArith QArith Qround Qminmax List Bool Lia Lqa.
From Verif Require Import Model.Pbas Spec.Pbas Spec.Subsense Proofs.Subsense.
Import ListNotations.
Open Scope Q_scope.

Lemma scan_low thr req : forall l good low g m, Forall (fun d => 0 <= d) l -> 0 <= low -> scan thr req l good low = (g, m) -> 0 <= m <= low.
Proof.
  induction l as [|d l IH]; intros good low g m H L; cbn [scan]; [ intros E; inversion E; subst; lra | ].
  inversion H; subst. destruct (Nat.ltb good req); [ | intros E; inversion E; subst; lra ].
  set (s := if Qltb 255 d then 255 else d). assert (S0 : 0 <= s) by (unfold s; qcase; lra). destruct (Qle_bool s thr).
  - intros E. apply IH in E; auto.
    + destruct (Qltb s low) eqn:Q; [ apply Qltb_true in Q; lra | lra ].
    + destruct (Qltb s low); auto.
  - intros E. apply IH in E; auto.
Qed.

Definition good_distance (thr d : Q) : bool := Qle_bool (if Qltb 255 d then 255 else d) thr.
Lemma scan_count thr req : forall l good low, (good <= req)%nat ->
  Nat.ltb (fst (scan thr req l good low)) req = Nat.ltb (good + length (filter (good_distance thr) l)) req.
Proof.
  induction l as [|d l IH]; intros good low H; cbn [scan filter]; [ cbn; rewrite Nat.add_0_r; reflexivity | ].
  destruct (Nat.ltb good req) eqn:L.
  - apply Nat.ltb_lt in L. unfold good_distance at 1. destruct (Qle_bool (if Qltb 255 d then 255 else d) thr).
    + rewrite IH by lia. cbn [length]. f_equal. lia.
    + rewrite IH by lia. reflexivity.
  - apply Nat.ltb_ge in L. cbn [fst]. symmetry. destruct (Nat.ltb_spec good req); [ lia | ]. apply Nat.ltb_ge. lia.
Qed.

Record inv (init : Q) (p : pixel) : Prop := {
  i_mean : 0 <= mean p <= 1; i_radius : 57 # 100 < radius p <= 588 # 100; i_rate : Qmin T_LOWER init <= rate p <= Qmax T_UPPER init }.

Lemma inv_start init : inv init (start init).
Proof. split; cbn; [ lra | lra | split; [ apply Q.le_min_r | apply Q.le_max_r ] ]. Qed.

Lemma mean_unit n m low : (1 <= n)%Z -> 0 <= m <= 1 -> 0 <= low <= 255 -> 0 <= (m * (inject_Z n - 1) + low / 255) / inject_Z n <= 1.
Proof.
  intros N M L. assert (N1 : 1 <= inject_Z n) by (apply (inject_le 1); auto). generalize dependent (inject_Z n). intros q Q.
  assert (A : 0 <= m * (q - 1)) by (apply Qmult_le_0_compat; lra). assert (B : m * (q - 1) <= 1 * (q - 1)) by (apply Qmult_le_compat_r; lra).
  assert (C : 0 <= low / 255 <= 1) by (split; [ apply Qle_shift_div_l | apply Qle_shift_div_r ]; lra).
  split; [ apply Qle_shift_div_l; lra | apply Qle_shift_div_r; lra ].
Qed.

Lemma step_facts c dists p fg k p' : (0 < samples c)%nat -> Forall (fun d => 0 <= d) dists -> 0 <= mean p <= 1 -> step c dists p = (fg, k, p') ->
  k = Qceiling (rate p) /\ 0 <= mean p' <= 1 /\
  fg = Nat.ltb (length (filter (good_distance (radius p * inject_Z (threshold c))) dists)) (required c) /\
  (let delta := 1 / (mean p' * 255 + 1) in
   rate p' = if fg then (if Qltb 200 (rate p + delta) then 200 else rate p + delta)
             else (if Qltb (rate p - (5 # 100) / (mean p' * 255 + 1)) 2 then 2 else rate p - (5 # 100) / (mean p' * 255 + 1))) /\
  radius p' = (if Qltb (radius p) ((60 # 100) + mean p' * 5) then (if Qltb (radius p) 99 then radius p * (105 # 100) else radius p)
               else if Qltb (60 # 100) (radius p) then radius p * (95 # 100) else radius p).
Proof.
  intros N D M. unfold step. pose proof (scan_count (radius p * inject_Z (threshold c)) (required c) dists 0 255 ltac:(lia)) as SC.
  destruct (scan _ _ _ _ _) as [good low] eqn:S. apply scan_low in S; auto; [ | lra ]. cbn [fst Nat.add] in SC.
  intros E. inversion E; subst; clear E. cbn [mean rate radius]. split; [ reflexivity | ].
  split; [ apply mean_unit; auto; lia | ]. split; [ auto | ]. split; reflexivity.
Qed.

Lemma step_inv c init dists p : (0 < samples c)%nat -> Forall (fun d => 0 <= d) dists -> inv init p -> inv init (snd (step c dists p)).
Proof.
  intros N D [M [R1 R2] [T1 T2]]. destruct (step c dists p) as [[fg k] p'] eqn:S. cbn [snd].
  apply step_facts in S; auto. destruct S as (_ & M' & _ & T & R). cbn zeta in T.
  assert (P1 : 0 < 1 / (mean p' * 255 + 1)) by (apply Qlt_shift_div_l; lra).
  assert (P2 : 0 < (5 # 100) / (mean p' * 255 + 1)) by (apply Qlt_shift_div_l; lra).
  pose proof (Q.le_max_l T_UPPER init) as U. pose proof (Q.le_min_l T_LOWER init) as L. unfold T_UPPER, T_LOWER in *.
  split; auto; unfold T_UPPER, T_LOWER.
  - rewrite R. clear - M' R1 R2. split; qcase; lra.
  - rewrite T. clear T R. destruct fg; qcase; split; try lra.
    (* the lower cap is below the upper one *)
    all: pose proof (Q.le_max_l 200 init); pose proof (Q.le_min_l 2 init); lra.
Qed.

Lemma play_inv c init : (0 < samples c)%nat -> forall frames p, Forall (Forall (fun d => 0 <= d)) frames -> inv init p -> inv init (play c frames p).
Proof.
  intros N. induction frames as [|f fs IH]; intros p F I; cbn [play]; auto. inversion F; subst. apply IH; auto. apply step_inv; auto.
Qed.

(* the radius multiplier at which no distance of a byte can be told apart *)
Lemma rate_in_caps c init frames : (0 < samples c)%nat -> Forall (Forall (fun d => 0 <= d)) frames -> 2 <= init <= 200 ->
  2 <= rate (play c frames (start init)) <= 200.
Proof.
  intros N F H. destruct (play_inv c init N frames _ F (inv_start init)) as [_ _ [T1 T2]]. unfold T_LOWER, T_UPPER in *.
  split; [ eapply Qle_trans; [ | apply T1 ]; apply Q.min_glb; lra | eapply Qle_trans; [ apply T2 | ]; apply Q.max_lub; lra ].
Qed.

Lemma rate_positive c init frames : (0 < samples c)%nat -> Forall (Forall (fun d => 0 <= d)) frames -> 0 < init ->
  (1 <= Qceiling (rate (play c frames (start init))))%Z.
Proof.
  intros N F H. destruct (play_inv c init N frames _ F (inv_start init)) as [_ _ [T1 T2]]. unfold T_LOWER in *.
  assert (P : 0 < rate (play c frames (start init))). { eapply Qlt_le_trans; [ | apply T1 ]. apply Q.min_glb_lt; lra. }
  pose proof (Qle_ceiling (rate (play c frames (start init)))) as C.
  assert (L : inject_Z 0 < inject_Z (Qceiling (rate (play c frames (start init))))) by (change (inject_Z 0) with 0; lra).
  rewrite <- Zlt_Qlt in L. lia.
Qed.

(* steady foreground raises the rate up to its cap, steady background lowers it *)
Lemma steady c b : (0 < samples c)%nat -> forall frames p, Forall (Forall (fun d => 0 <= d)) frames -> 0 <= mean p <= 1 -> rate p <= 200 -> 2 <= rate p ->
  always c b frames p ->
  if b then Qmin 200 (rate p + inject_Z (Z.of_nat (length frames)) * (1 # 256)) <= rate (play c frames p)
  else rate (play c frames p) <= Qmax 2 (rate p - inject_Z (Z.of_nat (length frames)) * (1 # 5120)).
Proof.
  intros N. induction frames as [|f fs IH]; intros p F M T T' A.
  - cbn [play length]. change (inject_Z (Z.of_nat 0)) with 0. destruct b.
    + eapply Qle_trans; [ apply Q.le_min_r | lra ].
    + eapply Qle_trans; [ | apply Q.le_max_r ]; lra.
  - cbn [play length always] in *. inversion F; subst. destruct A as [A1 A2]. rewrite Nat2Z.inj_succ, <- Z.add_1_r, inject_Z_plus. change (inject_Z 1) with 1.
    assert (Kp : 0 <= inject_Z (Z.of_nat (length fs))) by (apply (inject_le 0); lia).
    destruct (step c f p) as [[fg k] p'] eqn:S. cbn [fst snd] in *. subst fg. apply step_facts in S; auto. destruct S as (_ & M' & _ & R & _). cbn zeta in R.
    assert (P1 : 1 # 256 <= 1 / (mean p' * 255 + 1)) by (apply Qle_shift_div_l; lra).
    assert (P2 : 1 # 5120 <= (5 # 100) / (mean p' * 255 + 1)) by (apply Qle_shift_div_l; lra).
    destruct b.
    + assert (B : rate p' <= 200 /\ 2 <= rate p' /\ (rate p' == 200 \/ rate p + (1 # 256) <= rate p')).
      { rewrite R. qcase; repeat split; try lra; first [ left; lra | right; lra ]. }
      specialize (IH p' H2 M' ltac:(tauto) ltac:(tauto) A2). eapply Qle_trans; [ | exact IH ]. destruct B as (_ & _ & [B|B]).
      * eapply Qle_trans; [ apply Q.le_min_l | ]. apply Q.min_glb; lra.
      * apply Q.min_le_compat; lra.
    + assert (B : rate p' <= 200 /\ 2 <= rate p' /\ (rate p' == 2 \/ rate p' <= rate p - (1 # 5120))).
      { rewrite R. qcase; repeat split; try lra; first [ left; lra | right; lra ]. }
      specialize (IH p' H2 M' ltac:(tauto) ltac:(tauto) A2). eapply Qle_trans; [ exact IH | ]. destruct B as (_ & _ & [B|B]).
      * eapply Qle_trans; [ | apply Q.le_max_l ]. apply Q.max_lub; lra.
      * apply Q.max_le_compat; lra.
Qed.

Lemma pbas_decision c dists p fg k p' : step c dists p = (fg, k, p') ->
  (fg = false <-> at_least (required c) (fun d => Qmin d 255 <= radius p * inject_Z (threshold c)) dists).
Proof.
  unfold step. pose proof (scan_count (radius p * inject_Z (threshold c)) (required c) dists 0 255 ltac:(lia)) as SC.
  destruct (scan _ _ _ _ _) as [good low]. intros E. injection E as <- _ _. cbn [fst Nat.add] in SC. rewrite SC, Nat.ltb_ge. symmetry. apply at_least_filter.
  intros d _. unfold good_distance. rewrite Qle_bool_iff. destruct (Qltb 255 d) eqn:Q; [ apply Qltb_true in Q | apply Qltb_false in Q ].
  - rewrite Q.min_r by lra. reflexivity.
  - rewrite Q.min_l by lra. reflexivity.
Qed.
