From Coq Require Import ZArith Reals Bool List Lra Lia.
From Verif Require Import Model.Ptz Model.PtzCamera Spec.Ptz Spec.PtzCamera Proofs.Ptz.
Open Scope R_scope.

Lemma int_part_bounds r : IZR (Int_part r) <= r < IZR (Int_part r) + 1.
Proof. pose proof (base_Int_part r). lra. Qed.
Lemma trunc_nonneg r : 0 <= r -> IZR (trunc r) <= r < IZR (trunc r) + 1 /\ (0 <= trunc r)%Z.
Proof.
  intro H. unfold trunc. destruct (Rle_dec 0 r); [| contradiction ]. pose proof (int_part_bounds r). split; [ assumption |].
  assert (-1 < IZR (Int_part r)) by lra. apply (lt_IZR (-1)) in H1. lia.
Qed.
Lemma trunc_nonpos r : r <= 0 -> IZR (trunc r) - 1 < r <= IZR (trunc r) /\ (trunc r <= 0)%Z.
Proof.
  intro H. unfold trunc. destruct (Rle_dec 0 r).
  - assert (r = 0) by lra. subst. pose proof (int_part_bounds 0). assert (Int_part 0 = 0%Z). { assert (-1 < IZR (Int_part 0) < 1) as (A & B) by lra. apply (lt_IZR (-1)) in A. apply (lt_IZR _ 1) in B. lia. } rewrite H1. split; [ lra | lia ].
  - pose proof (int_part_bounds (- r)). rewrite opp_IZR. split; [ lra |]. assert (-1 < IZR (Int_part (- r))) by lra. apply (lt_IZR (-1)) in H1. lia.
Qed.
Lemma fmod_nonneg x y : 0 < y -> 0 <= x -> 0 <= fmod x y < y.
Proof.
  intros Y X. unfold fmod. assert (D : 0 <= x / y). { apply Rmult_le_pos; [ lra | apply Rlt_le, Rinv_0_lt_compat; lra ]. } pose proof (trunc_nonneg _ D) as ((A & B) & _).
  set (q := IZR (trunc (x / y))) in *. assert (E : x = x / y * y) by (field; lra). split.
  - assert (q * y <= x / y * y) by (apply Rmult_le_compat_r; lra). lra.
  - assert (x / y * y < (q + 1) * y) by (apply Rmult_lt_compat_r; lra). lra.
Qed.
Lemma fmod_nonpos x y : 0 < y -> x <= 0 -> - y < fmod x y <= 0.
Proof.
  intros Y X. unfold fmod. assert (D : x / y <= 0). { unfold Rdiv. assert (0 < / y) by (apply Rinv_0_lt_compat; lra). nra. } pose proof (trunc_nonpos _ D) as ((A & B) & _).
  set (q := IZR (trunc (x / y))) in *. assert (E : x = x / y * y) by (field; lra). split.
  - assert ((q - 1) * y < x / y * y) by (apply Rmult_lt_compat_r; lra). lra.
  - assert (x / y * y <= q * y) by (apply Rmult_le_compat_r; lra). lra.
Qed.
Lemma wrap_cases v : (-180 < v <= 180 -> wrap v = v) /\ (v <= -180 -> wrap v = fmod (v - 180) 360 + 180) /\ (180 < v -> wrap v = fmod (v + 180) 360 - 180).
Proof.
  unfold wrap. repeat split; intro H.
  - rewrite (proj2 (leb_false _ _)), (proj2 (ltb_false _ _)) by lra. reflexivity.
  - rewrite (proj2 (leb_spec _ _)), (proj2 (ltb_spec v 0)) by lra. cbn [orb]. replace (v + 180 - 360 * 1) with (v - 180) by ring. ring.
  - rewrite (proj2 (ltb_spec 180 v)), (proj2 (ltb_false v 0)) by lra. rewrite orb_true_r. replace (v + 180 - 360 * 0) with (v + 180) by ring. ring.
Qed.
Lemma wrap_range v : -180 <= wrap v <= 180.
Proof.
  destruct (wrap_cases v) as (A & B & D). destruct (Rle_dec v (-180)) as [H|H].
  - rewrite B by assumption. pose proof (fmod_nonpos (v - 180) 360 ltac:(lra) ltac:(lra)). lra.
  - destruct (Rle_dec v 180); [ rewrite A; lra |]. rewrite D by lra. pose proof (fmod_nonneg (v + 180) 360 ltac:(lra) ltac:(lra)). lra.
Qed.
Lemma wrap_same v : same_direction (wrap v) v.
Proof.
  destruct (wrap_cases v) as (A & B & D). destruct (Rle_dec v (-180)) as [H|H].
  - rewrite B by assumption. unfold fmod. exists (- trunc ((v - 180) / 360))%Z. rewrite opp_IZR. ring.
  - destruct (Rle_dec v 180).
    + rewrite A by lra. exists 0%Z. ring.
    + rewrite D by lra. unfold fmod. exists (- trunc ((v + 180) / 360))%Z. rewrite opp_IZR. ring.
Qed.
Lemma wrap_bad v : wrap v = -180 <-> 180 < v /\ same_direction v 180.
Proof.
  destruct (wrap_cases v) as (A & B & D). split.
  - intro W. destruct (Rle_dec v (-180)) as [H|H].
    + rewrite B in W by assumption. pose proof (fmod_nonpos (v - 180) 360 ltac:(lra) ltac:(lra)). lra.
    + destruct (Rle_dec v 180); [ rewrite A in W; lra |]. split; [ lra |]. destruct (wrap_same v) as (k & K). rewrite W in K. exists (- k - 1)%Z. rewrite minus_IZR, opp_IZR. lra.
  - intros (H & k & K). rewrite D by assumption. unfold fmod. replace ((v + 180) / 360) with (IZR (k + 1)) by (rewrite plus_IZR, K; field).
    assert (P : 0 <= IZR (k + 1)). { apply IZR_le. assert (0 < IZR k) by lra. apply lt_IZR in H0. lia. }
    destruct (trunc_nonneg _ P) as ((L & U) & _). assert (E : trunc (IZR (k + 1)) = (k + 1)%Z).
    { apply Z.le_antisymm; [ now apply le_IZR |]. assert (X : IZR (k + 1) < IZR (trunc (IZR (k + 1)) + 1)) by (rewrite (plus_IZR (trunc _)); lra). apply lt_IZR in X. lia. }
    rewrite E, plus_IZR, K. ring.
Qed.
Lemma wrap_good v : ~ (180 < v /\ same_direction v 180) -> -180 < wrap v <= 180.
Proof. intro H. rewrite <- wrap_bad in H. pose proof (wrap_range v). lra. Qed.

(** turning *)
Lemma change_cases o n : -360 <= n - o <= 360 -> -180 <= change o n <= 180 /\ (change o n = n - o \/ change o n = 360 - (n - o) /\ 180 < n - o \/ change o n = n - o + 360 /\ n - o <= -180).
Proof.
  intro H. unfold change. cbv zeta. destruct (ltb 180 (n - o)) eqn:L; [ apply ltb_spec in L | apply ltb_false in L; destruct (leb (n - o) (-180)) eqn:M; [ apply leb_spec in M | apply leb_false in M ] ]; lra.
Qed.
Lemma zero_or_far k : k = 0%Z \/ 1 <= IZR k \/ IZR k <= -1.
Proof. destruct (Z.lt_trichotomy k 0) as [H|[H|H]]; [ right; right; apply (IZR_le k (-1)); lia | now left | right; left; apply (IZR_le 1 k); lia ]. Qed.
Lemma turn_least a b d : -180 <= d <= 180 -> (exists k : Z, Rabs d = Rabs (b - a + 360 * IZR k)) -> turn a b (Rabs d).
Proof.
  intros D (k & K). split; [ now exists k |]. intro j. set (x := b - a) in *.
  assert (S : d = x + 360 * IZR k \/ d = - (x + 360 * IZR k)). { unfold Rabs in K. destruct (Rcase_abs d), (Rcase_abs (x + 360 * IZR k)); lra. }
  destruct (zero_or_far (j - k)) as [E|E].
  - assert (j = k) by lia. subst j. lra.
  - rewrite minus_IZR in E. unfold Rabs. destruct (Rcase_abs d), (Rcase_abs (x + 360 * IZR j)); destruct E; destruct S; lra.
Qed.
Lemma change_turn o n : -360 <= n - o <= 360 -> turn o n (Rabs (change o n)).
Proof.
  intro H. destruct (change_cases o n H) as (B & [E|[(E & _)|(E & _)]]); apply turn_least; try exact B; rewrite E.
  - exists 0%Z. f_equal. ring.
  - exists (-1)%Z. rewrite <- Rabs_Ropp. f_equal. ring.
  - exists 1%Z. f_equal. ring.
Qed.
Lemma change_sign o n : -360 <= n - o <= 180 -> same_direction (o + change o n) n.
Proof.
  intro H. destruct (change_cases o n ltac:(lra)) as (B & [E|[(E & L)|(E & L)]]); rewrite E; [ exists 0%Z; ring | lra | exists 1%Z; ring ].
Qed.
Lemma change_wrong o n : 180 < n - o < 360 -> ~ same_direction (o + change o n) n.
Proof.
  intros H (k & K). destruct (change_cases o n ltac:(lra)) as (B & [E|[(E & L)|(E & L)]]); rewrite E in K; try lra.
  assert (X : 2 * (n - o) = 360 * (1 - IZR k)) by lra. assert (Y : n - o = 180 * IZR (1 - k)) by (rewrite minus_IZR; lra).
  assert (A1 : 1 < IZR (1 - k) < 2) by lra. destruct A1 as (A1 & A2). apply (lt_IZR 1) in A1. apply (lt_IZR _ 2) in A2. lia.
Qed.

(** the state *)
Definition sane (c : camera) : Prop :=
  (1 <= width (lens c))%Z /\ (1 <= height (lens c))%Z /\ 0 < fov (lens c) < 180 /\ -180 <= hori (lens c) <= 180 /\ 0 <= verti (lens c) <= 180 /\
  0 < hori_speed c /\ 0 < verti_speed c /\ 0 <= delay_ratio c /\ 0 <= comm_delay c /\ (0 <= frame c)%Z /\ -180 <= hori_change c <= 180.
Ltac tests := repeat match goal with
  | H : (if ?b then _ else _) = Some _ |- _ => let E := fresh "T" in destruct b eqn:E; try discriminate H
  | H : (_ || _)%bool = false |- _ => apply orb_false_iff in H; destruct H
  | H : ltb _ _ = false |- _ => apply ltb_false in H
  | H : leb _ _ = false |- _ => apply leb_false in H end.
Lemma set_sane c f v c' : sane c -> set c f v = Some c' -> sane c'.
Proof.
  intros (A & B & C & D & E & F & G & H & I0 & J & K) X. destruct f; cbn [set] in X; tests; try discriminate X; injection X as <-; unfold sane; cbn; repeat split; try lra; try lia; try tauto.
  - apply trunc_nonneg; lra.
  - apply wrap_range. - apply wrap_range.
  - pose proof (wrap_range v) as W. apply change_cases. lra.
  - pose proof (wrap_range v) as W. apply change_cases. lra.
Qed.
Lemma go_to_spec c x y c' : go_to c x y = Some c' -> good_view (lens c) = true /\ (0 <= x < width (lens c))%Z /\ (0 <= y < height (lens c))%Z /\
  xy_to_hv (lens c) x y = Some (hori (lens c'), verti (lens c')) /\ -180 < hori (lens c') <= 180 /\ 0 <= verti (lens c') <= 180 /\
  c' = with_lens c {| width := width (lens c); height := height (lens c); fov := fov (lens c); hori := hori (lens c'); verti := verti (lens c') |} (change (hori (lens c)) (hori (lens c'))) (verti (lens c') - verti (lens c)).
Proof.
  unfold go_to. cbv zeta. destruct (xy_to_hv (lens c) x y) as [(h & v)|] eqn:E; [| discriminate ]. intro X. injection X as <-. cbn [lens hori verti with_lens].
  assert (G : good_view (lens c) = true). { destruct (good_view (lens c)) eqn:G; [ reflexivity |]. rewrite xy_none in E by auto. discriminate. }
  assert (P : (0 <= x < width (lens c) /\ 0 <= y < height (lens c))%Z).
  { destruct (Z_le_dec 0 x); [ destruct (Z_lt_dec x (width (lens c))); [ destruct (Z_le_dec 0 y); [ destruct (Z_lt_dec y (height (lens c))); [ lia |] |] |] |]; rewrite xy_none in E by (right; lia); discriminate. }
  destruct P as (P & Q). destruct (xy_ray (lens c) x y G P Q) as (h' & v' & E' & A & B & _). rewrite E in E'. injection E' as <- <-. tauto.
Qed.
Lemma go_to_sane c x y c' : sane c -> go_to c x y = Some c' -> sane c'.
Proof.
  intros (A & B & C & D & E & F & G & H & I0 & J & K) X. apply go_to_spec in X. destruct X as (_ & _ & _ & _ & P & Q & X). set (h := hori (lens c')) in *. set (v := verti (lens c')) in *. rewrite X. unfold sane. cbn. repeat split; try lra; try lia.
  - apply change_cases. lra. - apply change_cases. lra.
Qed.
Lemma begin_sane c n t c' : sane c -> begin_playing c n t = Some c' -> sane c'.
Proof. intros S X. unfold begin_playing in X. destruct (set c Frame_pos (IZR n)) as [d|] eqn:E; [| discriminate ]. apply set_sane in E; [| exact S ]. injection X as <-. exact E. Qed.
Lemma wait_spec c t u c' b : wait c t u = Some (c', b) ->
  (count c <= frame c)%Z /\ c' = c /\ b = false \/
  (frame c < count c)%Z /\ exists i, let now' := now c + (delay_ratio c * execution_delay c t + motion_delay c + comm_delay c) in to_int (now' * rate c + / 2) = Some i /\
    c' = with_clock (with_frame c (Z.max i (frame c + 1))) (first_tick c) now' (overhead c) (u - first_tick c) /\ b = (Z.max i (frame c + 1) <? count c)%Z.
Proof.
  unfold wait. destruct (count c <=? frame c)%Z eqn:L.
  - intro X. injection X as <- <-. left. apply Z.leb_le in L. auto.
  - cbv zeta. destruct (to_int _) as [i|] eqn:E; [| discriminate ]. intro X. injection X as <- <-. right. apply Z.leb_gt in L. split; [ exact L |]. exists i. auto.
Qed.
Lemma wait_sane c t u c' b : sane c -> wait c t u = Some (c', b) -> sane c'.
Proof.
  intros S X. apply wait_spec in X. destruct X as [(_ & -> & _)|(_ & i & _ & -> & _)]; [ exact S |].
  destruct S as (A & B & C & D & E & F & G & H & I0 & J & K). unfold sane. cbn. repeat split; try lra; lia.
Qed.
Lemma step_sane c o c' : sane c -> step c o = Some c' -> sane c'.
Proof.
  intros S X. destruct o; cbn [step] in X.
  - now apply set_sane in X. - now apply go_to_sane in X. - now apply begin_sane in X.
  - destruct (wait c t u) as [(d & b)|] eqn:E; [| discriminate ]. injection X as <-. now apply wait_sane in E.
  - injection X as <-. unfold get_frame. destruct ok; exact S.
Qed.
Lemma steps_sane os : forall c c', sane c -> steps c os = Some c' -> sane c'.
Proof.
  induction os as [|o os IH]; intros c c' S X; cbn [steps] in X; [ now injection X as <- |].
  destruct (step c o) as [d|] eqn:E; [| discriminate ]. apply IH in X; [ exact X | now apply step_sane in E ].
Qed.
Lemma create_spec n r w h f ho ve hs vs cd c : create n r w h f ho ve hs vs cd = Some c ->
  sane c /\ hori_change c = 0 /\ verti_change c = 0 /\ count c = n /\ rate c = r /\ frame c = 0%Z /\ lens c = {| width := Z.max (trunc w) 1; height := Z.max (trunc h) 1; fov := f; hori := wrap ho; verti := ve |} /\
  hori_speed c = hs /\ verti_speed c = vs /\ comm_delay c = cd /\ delay_ratio c = 1.
Proof.
  unfold create. cbn [steps step set].
  destruct (leb 180 f || leb f 0) eqn:T1; [ discriminate |]. cbn [steps step set lens with_lens hori verti width height fov].
  destruct (ltb ve 0 || ltb 180 ve) eqn:T2; [ discriminate |]. cbn [steps step set].
  destruct (leb hs 0) eqn:T3; [ discriminate |]. cbn [steps step set]. destruct (leb vs 0) eqn:T4; [ discriminate |]. cbn [steps step set]. destruct (ltb cd 0) eqn:T5; [ discriminate |]. cbn [steps step set].
  intro X. injection X as <-. tests. pose proof (wrap_range ho). unfold sane. cbn. repeat split; try lra; lia.
Qed.
Lemma create_accepts n r w h f ho ve hs vs cd : 0 < f < 180 -> 0 <= ve <= 180 -> 0 < hs -> 0 < vs -> 0 <= cd -> create n r w h f ho ve hs vs cd <> None.
Proof.
  intros A B C D E. unfold create. cbn [steps step set]. rewrite (proj2 (leb_false 180 f)), (proj2 (leb_false f 0)) by lra. cbn [orb steps step set lens with_lens hori verti width height fov].
  rewrite (proj2 (ltb_false ve 0)), (proj2 (ltb_false 180 ve)) by lra. cbn [orb steps step set]. rewrite (proj2 (leb_false hs 0)) by lra. cbn [steps step set]. rewrite (proj2 (leb_false vs 0)) by lra. cbn [steps step set].
  rewrite (proj2 (ltb_false cd 0)) by lra. discriminate.
Qed.
Lemma sane_view c : sane c -> hori (lens c) <> -180 -> good_view (lens c) = true.
Proof. intros (A & B & C & D & E & _) N. apply good_view_spec. lra || (repeat split; lra || lia). Qed.
Lemma go_to_usable c x y : sane c -> hori (lens c) <> -180 -> (0 <= x < width (lens c))%Z -> (0 <= y < height (lens c))%Z -> exists c', go_to c x y = Some c' /\
  seen_at (width (lens c)) (height (lens c)) (fov (lens c)) (hori (lens c)) (verti (lens c)) (forward (hori (lens c')) (verti (lens c'))) (IZR x) (IZR y) /\
  turn (hori (lens c)) (hori (lens c')) (Rabs (hori_change c')) /\ verti_change c' = verti (lens c') - verti (lens c).
Proof.
  intros S N X Y. pose proof (sane_view c S N) as G. destruct (xy_ray (lens c) x y G X Y) as (h & v & E & A & B & V). unfold go_to. cbv zeta. rewrite E. eexists. split; [ reflexivity |]. cbn. repeat split; try exact V; try lra.
  - apply change_turn. destruct S as (_ & _ & _ & D & _). lra.
  - apply change_turn. destruct S as (_ & _ & _ & D & _). lra.
Qed.
Lemma go_to_stuck c x y : hori (lens c) = -180 -> go_to c x y = None.
Proof.
  intro H. unfold go_to. rewrite xy_none; [ reflexivity |]. left. destruct (good_view (lens c)) eqn:G; [| reflexivity ]. apply good_view_spec in G. lra.
Qed.
Lemma wait_frames c t u c' b : wait c t u = Some (c', b) -> count c' = count c /\ (frame c <= frame c')%Z /\ (b = true <-> (frame c' < count c)%Z) /\ ((frame c < count c)%Z -> (frame c < frame c')%Z).
Proof.
  intro X. apply wait_spec in X. destruct X as [(A & -> & ->)|(A & i & _ & -> & ->)]; cbn.
  - repeat split; try lia; try discriminate.
  - rewrite Z.ltb_lt. repeat split; lia.
Qed.
(* histories without seeking *)
Definition seeks (o : op) : bool := match o with Set_ Frame_pos _ | Begin_playing _ _ => true | _ => false end.
Definition is_wait (o : op) : bool := match o with Wait _ _ => true | _ => false end.
Lemma set_frame c f v c' : set c f v = Some c' -> seeks (Set_ f v) = false -> count c' = count c /\ frame c' = frame c.
Proof. intros X N. destruct f; cbn [set] in X; tests; try discriminate; injection X as <-; cbn; auto. Qed.
Lemma steps_frames os : forall c c', forallb (fun o => negb (seeks o)) os = true -> steps c os = Some c' ->
  count c' = count c /\ (frame c <= frame c')%Z /\ (Z.min (frame c + Z.of_nat (length (filter is_wait os))) (count c) <= frame c')%Z.
Proof.
  induction os as [|o os IH]; intros c c' N X; cbn [steps] in X.
  - injection X as <-. cbn. lia.
  - cbn [forallb] in N. apply andb_true_iff in N. destruct N as (N & N'). apply negb_true_iff in N. destruct (step c o) as [d|] eqn:E; [| discriminate ]. destruct (IH d c' N' X) as (A & B & D).
    destruct o; cbn [step] in E.
    + destruct (set_frame c f v d E N) as (P & Q). cbn [filter is_wait]. rewrite P, Q in *. lia.
    + apply go_to_spec in E. destruct E as (_ & _ & _ & _ & _ & _ & E). assert (P : count d = count c) by (rewrite E; reflexivity). assert (Q : frame d = frame c) by (rewrite E; reflexivity). cbn [filter is_wait]. rewrite P, Q in *. lia.
    + discriminate.
    + destruct (wait c t u) as [(e & b)|] eqn:W; [| discriminate ]. injection E as <-. destruct (wait_frames _ _ _ _ _ W) as (P & Q & _ & R0). cbn [filter is_wait length]. rewrite Nat2Z.inj_succ. rewrite P in *. lia.
    + injection E as <-. assert (P : count (get_frame c ok t u) = count c) by (destruct ok; reflexivity). assert (Q : frame (get_frame c ok t u) = frame c) by (destruct ok; reflexivity). cbn [filter is_wait]. rewrite P, Q in *. lia.
Qed.
Lemma motion_nonneg c : sane c -> 0 <= motion_delay c.
Proof.
  intros (_ & _ & _ & _ & _ & F & G & _). unfold motion_delay. assert (forall x y, 0 < y -> 0 <= Rabs x / y). { intros x y Y. apply Rmult_le_pos; [ apply Rabs_pos | apply Rlt_le, Rinv_0_lt_compat, Y ]. }
  pose proof (H (hori_change c) _ F). pose proof (H (verti_change c) _ G). lra.
Qed.
(* moving and setting do not touch the clock *)
Definition moves (o : op) : bool := match o with Set_ _ _ | Go_to _ _ => true | _ => false end.
Lemma move_clock c o c' : moves o = true -> step c o = Some c' -> first_tick c' = first_tick c /\ now c' = now c /\ overhead c' = overhead c /\ begin_time c' = begin_time c.
Proof.
  intros M X. destruct o; try discriminate; cbn [step] in X.
  - destruct f; cbn [set] in X; tests; try discriminate; injection X as <-; cbn; auto.
  - apply go_to_spec in X. destruct X as (_ & _ & _ & _ & _ & _ & X). rewrite X. cbn. auto.
Qed.
Lemma moves_clock os : forall c c', forallb moves os = true -> steps c os = Some c' -> first_tick c' = first_tick c /\ now c' = now c /\ overhead c' = overhead c /\ begin_time c' = begin_time c.
Proof.
  induction os as [|o os IH]; intros c c' M X; cbn [steps] in X; [ injection X as <-; auto |]. cbn [forallb] in M. apply andb_true_iff in M. destruct M as (M & M').
  destruct (step c o) as [d|] eqn:E; [| discriminate ]. apply move_clock in E; [| exact M ]. apply IH in X; [| exact M' ]. destruct E as (E1 & E2 & E3 & E4). rewrite E1, E2, E3, E4 in X. exact X.
Qed.
Lemma set_seek c v : (0 <= v <= IZR (count c - 1) <-> set c Frame_pos v <> None) /\ forall c', set c Frame_pos v = Some c' -> (0 <= frame c' < count c)%Z /\ IZR (frame c') <= v < IZR (frame c') + 1 /\ lens c' = lens c.
Proof.
  cbn [set]. destruct (ltb (IZR (count c - 1)) v || ltb v 0) eqn:B.
  - split; [| discriminate ]. split; [| congruence ]. intro H. apply orb_true_iff in B. rewrite !ltb_spec in B. lra.
  - apply orb_false_iff in B. destruct B as [B1 B2]. apply not_true_iff_false in B1, B2. rewrite ltb_spec in B1, B2. split; [ split; [ discriminate | intros _; lra ] |]. intros c' X. injection X as <-. cbn [frame lens with_frame].
    destruct (trunc_nonneg v ltac:(lra)) as (T & T0). split; [| auto ]. split.
    + exact T0.
    + assert (trunc v <= count c - 1)%Z; [| lia ]. apply le_IZR. lra.
Qed.
Lemma set_tilt c v : (0 <= v <= 180 <-> set c Verti_angle v <> None) /\ forall c', set c Verti_angle v = Some c' -> verti (lens c') = v /\ verti (lens c) + verti_change c' = v /\ hori (lens c') = hori (lens c) /\ hori_change c' = hori_change c.
Proof.
  cbn [set]. destruct (ltb v 0 || ltb 180 v) eqn:B.
  - split; [| discriminate ]. split; [| congruence ]. intro H. apply orb_true_iff in B. rewrite !ltb_spec in B. lra.
  - apply orb_false_iff in B. destruct B as [B1 B2]. apply not_true_iff_false in B1, B2. rewrite ltb_spec in B1, B2. split; [ split; [ discriminate | intros _; lra ] |]. intros c' X. injection X as <-. cbn. repeat split; lra.
Qed.
