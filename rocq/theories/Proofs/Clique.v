From Coq Require Import ZArith List Bool Lia.
From Verif Require Import Lib.Grid Model.Submodular Spec.Submodular Model.Clique Spec.Clique Proofs.Submodular Proofs.SubmodularLinear Proofs.SubmodularNormal.
Import ListNotations.
Open Scope Z_scope.

(* sets below a mask, downwards *)
Lemma land_half A B : Z.land A B = 2 * Z.land (Z.div2 A) (Z.div2 B) + Z.b2z (Z.odd A && Z.odd B).
Proof.
  rewrite (Z.div2_odd (Z.land A B)). f_equal.
  - f_equal. rewrite !Z.div2_spec, Z.shiftr_land. reflexivity.
  - f_equal. rewrite <- !Z.bit0_odd. apply Z.land_spec.
Qed.
Lemma land_below A B : 0 <= A -> 0 <= Z.land A B <= A.
Proof.
  intros H. replace (Z.land A B) with (Z.ldiff A (Z.lnot B)) by (rewrite Z.ldiff_land, Z.lnot_involutive; reflexivity). apply ldiff_le. exact H.
Qed.
Lemma sub_half a m : 0 <= a -> Z.land a m = a -> Z.land (Z.div2 a) (Z.div2 m) = Z.div2 a /\ (Z.odd a = true -> Z.odd m = true).
Proof.
  intros H E. rewrite land_half in E. assert (D := Z.div2_odd a). rewrite D in E at 3. destruct (Z.odd a), (Z.odd m); cbn [andb Z.b2z] in *; split; try reflexivity; try lia; try discriminate; intros; lia.
Qed.
Lemma next_top m : forall a b, 0 < a -> Z.land a m = a -> 0 <= b < a -> Z.land b m = b -> b <= Z.land (a - 1) m.
Proof.
  intros a. revert m. assert (W : forall k, 0 <= k -> forall a m b, 0 < a <= k -> Z.land a m = a -> 0 <= b < a -> Z.land b m = b -> b <= Z.land (a - 1) m).
  { intros k Hk. pattern k. apply Zlt_0_ind; [|exact Hk]. clear k Hk. intros k IH _ c m b Hc Ec Hb Eb.
    destruct (sub_half c m ltac:(lia) Ec) as [Ec' Oc]. destruct (sub_half b m ltac:(lia) Eb) as [Eb' Ob]. assert (Dc := Z.div2_odd c). assert (Db := Z.div2_odd b).
    destruct (Z.odd c) eqn:O; cbn [Z.b2z] in Dc.
    - assert (P : Z.div2 (c - 1) = Z.div2 c) by (rewrite Z.div2_div; replace (c - 1) with (Z.div2 c * 2) by lia; rewrite Z.div_mul by lia; reflexivity).
      assert (Q : Z.odd (c - 1) = false) by (rewrite Z.sub_1_r, Z.odd_pred, <- Z.negb_odd, O; reflexivity).
      rewrite land_half, P, Q, Ec'. cbn [andb Z.b2z]. lia.
    - assert (P : Z.div2 (c - 1) = Z.div2 c - 1). { rewrite Z.div2_div. replace (c - 1) with (1 + (Z.div2 c - 1) * 2) by lia. rewrite Z.div_add by lia. reflexivity. }
      assert (Q : Z.odd (c - 1) = true) by (rewrite Z.sub_1_r, Z.odd_pred, <- Z.negb_odd, O; reflexivity).
      rewrite land_half, P, Q. cbn [andb].
      assert (B2 : 0 <= Z.b2z (Z.odd b) <= 1) by (destruct (Z.odd b); cbn; lia).
      assert (I := IH (Z.div2 c) ltac:(lia) (Z.div2 c) (Z.div2 m) (Z.div2 b) ltac:(lia) Ec' ltac:(lia) Eb').
      destruct (Z.odd b); [rewrite (Ob eq_refl)|]; cbn [Z.b2z] in *; [lia|]. destruct (Z.odd m); cbn [Z.b2z]; lia. }
  intros m b Ha. apply (W a); lia.
Qed.
Lemma sub_next a m : Z.land (Z.land a m) m = Z.land a m.
Proof. rewrite <- Z.land_assoc, Z.land_diag. reflexivity. Qed.

Lemma submasks_list mask : 0 <= mask < 2 ^ 32 -> forall fuel a, 0 <= a < Z.of_nat fuel -> Z.land a mask = a ->
  exists l, (forall A (step : Z -> A -> A) st, submasks fuel mask step a st = Done (fold_left (fun st b => step b st) l st)) /\ NoDup l /\
  (forall b, In b l <-> 0 <= b <= a /\ Z.land b mask = b).
Proof.
  intros Hm. induction fuel as [|m IH]; intros a Ha Ea; [lia|].
  assert (La : a <= mask) by (rewrite <- Ea, Z.land_comm; apply land_below; lia).
  destruct (Z.eq_dec a 0) as [->|N].
  - exists [0]. split; [|split].
    + intros A step st. cbn [submasks fold_left]. change ((0 - 1) mod 2 ^ 32) with (2 ^ 32 - 1). rewrite Z.land_comm. change (2 ^ 32 - 1) with (Z.ones 32). rewrite Z.land_ones, Z.mod_small by lia.
      rewrite Z.eqb_refl. reflexivity.
    + constructor; [intros []|constructor].
    + intros b. split; [intros [<-|[]]; split; [lia|assumption]|]. intros [H _]. left. lia.
  - assert (Hn := land_below (a - 1) mask ltac:(lia)).
    destruct (IH (Z.land (a - 1) mask) ltac:(lia) (sub_next _ _)) as (l & E & D & M). exists (a :: l). split; [|split].
    + intros A step st. cbn [submasks fold_left]. rewrite (Z.mod_small (a - 1)) by lia. destruct (Z.eqb_spec (Z.land (a - 1) mask) mask); [lia|]. apply E.
    + constructor; [rewrite M; lia|exact D].
    + intros b. cbn [In]. rewrite M. split.
      * intros [<-|[H1 H2]]; split; (assumption || lia).
      * intros [H1 H2]. destruct (Z.eq_dec a b); [left; assumption|right]. split; [|assumption]. split; [lia|]. apply next_top; (assumption || lia).
Qed.

(* the sets without u and v *)
Section Pair.
Variables n u v : Z.
Hypothesis Hn : 0 <= n < 32.
Hypothesis Hu : 0 <= u < n.
Hypothesis Hv : 0 <= v < n.
Lemma uv_within : within 32 (Z.lor (2 ^ u) (2 ^ v)).
Proof. apply within_lor; [lia| |]; apply within_pow; lia. Qed.
Lemma others_spec i : 0 <= i -> Z.testbit (others n u v) i = (i <? n) && negb (u =? i) && negb (v =? i).
Proof.
  intros Hi. unfold others. rewrite (negation _ 32) by (lia || apply uv_within). fold (whole n).
  rewrite Z.land_spec, Z.ldiff_spec, !whole_spec, Z.lor_spec, !pow_spec by lia. destruct (Z.ltb_spec i n), (Z.ltb_spec i 32); try lia; destruct (u =? i), (v =? i); reflexivity.
Qed.
Lemma others_within : within n (others n u v).
Proof. unfold others. apply within_land; [lia|]. apply within_whole. lia. Qed.
Definition rest (S : Z) : Z := Z.land S (others n u v).
Lemma rest_spec S i : 0 <= i -> Z.testbit (rest S) i = Z.testbit S i && ((i <? n) && negb (u =? i) && negb (v =? i)).
Proof. intros Hi. unfold rest. rewrite Z.land_spec, others_spec by lia. reflexivity. Qed.
Lemma free_list : exists l, (forall A (step : Z -> A -> A) st, submasks (Z.to_nat (2 ^ n)) (others n u v) step (others n u v) st = Done (fold_left (fun st b => step b st) l st)) /\ NoDup l /\
  (forall b, In b l <-> 0 <= b /\ rest b = b).
Proof.
  assert (W := others_within). assert (P := pow_pos n ltac:(lia)). assert (L : 2 ^ n < 2 ^ 32) by (apply Z.pow_lt_mono_r; lia).
  destruct (submasks_list (others n u v) ltac:(destruct W; lia) (Z.to_nat (2 ^ n)) (others n u v) ltac:(destruct W; lia) (Z.land_diag _)) as (l & E & D & M).
  exists l. split; [exact E|]. split; [exact D|]. intros b. rewrite M. split; [intros [H1 H2]; split; [lia|exact H2]|].
  intros [H1 H2]. split; [|exact H2]. split; [exact H1|]. rewrite <- H2. unfold rest. rewrite Z.land_comm. apply land_below. destruct W; lia.
Qed.
Lemma rest_rest S : rest (rest S) = rest S.
Proof. apply sub_next. Qed.
Lemma rest_nonneg S : 0 <= rest S.
Proof. unfold rest. apply Z.land_nonneg. right. apply others_within. Qed.

Lemma sep_form S : u <> v -> (separates n u v S <-> exists b, 0 <= b /\ rest b = b /\ S = Z.lor b (2 ^ u)).
Proof.
  intros Nuv. split.
  - intros (W & I1 & I2). exists (rest S). split; [apply rest_nonneg|]. split; [apply rest_rest|]. apply bits_ext. intros i Hi. rewrite Z.lor_spec, rest_spec, pow_spec by lia.
    destruct (Z.eqb_spec u i) as [->|N1]; [rewrite orb_true_r; exact I1|]. destruct (Z.eqb_spec v i) as [<-|N2].
    + rewrite !andb_false_r. apply not_true_is_false. exact I2.
    + destruct (Z.ltb_spec i n); cbn [negb andb]; [rewrite andb_true_r, orb_false_r; reflexivity|]. rewrite (bit_high n) by assumption. reflexivity.
  - intros (b & B0 & B1 & ->). assert (Wb : within n b) by (rewrite <- B1; unfold rest; rewrite Z.land_comm; apply within_land; [lia|apply others_within]).
    split; [apply within_lor; [lia|assumption|apply within_pow; lia]|]. unfold inside. rewrite !Z.lor_spec, !pow_spec by lia. rewrite Z.eqb_refl, orb_true_r. split; [reflexivity|].
    rewrite <- B1, rest_spec by lia. rewrite Z.eqb_refl, !andb_false_r. destruct (Z.eqb_spec u v); [contradiction|]. discriminate.
Qed.

Lemma fold_min (f : Z -> Z) l top : let r := fold_left (fun m b => if f b <? m then f b else m) l top in
  r <= top /\ (forall b, In b l -> r <= f b) /\ (r = top \/ exists b, In b l /\ r = f b).
Proof.
  revert top. induction l as [|a l IH]; intros top; cbn [fold_left]; cbv zeta.
  - split; [lia|]. split; [intros ? []|left; reflexivity].
  - destruct (IH (if f a <? top then f a else top)) as (A & B & C). cbv zeta in *.
    assert (T : (if f a <? top then f a else top) <= top /\ (if f a <? top then f a else top) <= f a) by (destruct (Z.ltb_spec (f a) top); lia).
    split; [lia|]. split; [intros b [<-|H]; [lia|apply B; exact H]|].
    destruct C as [C|(b & H & C)]; [|right; exists b; split; [right|]; assumption]. destruct (Z.ltb_spec (f a) top) in *; [right; exists a; split; [left; reflexivity|lia]|left; lia].
Qed.
Lemma capacity_ok top f : u <> v -> (forall S, within n S -> f S <= top) -> exists c, exchange_capacity top n f u v = Done c /\ capacity n f u v c.
Proof.
  intros Nuv T. destruct free_list as (l & E & D & M). unfold exchange_capacity. rewrite E. eexists. split; [reflexivity|].
  destruct (fold_min (fun b => f (Z.lor b (2 ^ u))) l top) as (A & B & C). cbv zeta in *. split.
  - intros S H. apply sep_form in H; [|exact Nuv]. destruct H as (b & B0 & B1 & ->). apply (B b). apply M. split; assumption.
  - destruct C as [C|(b & H & C)].
    + assert (I0 : In 0 l) by (apply M; split; [lia|reflexivity]). exists (2 ^ u).
      assert (SP : separates n u v (2 ^ u)) by (apply sep_form; [exact Nuv|]; exists 0; split; [lia|]; split; [reflexivity|symmetry; apply Z.lor_0_l]).
      split; [exact SP|]. assert (X := B 0 I0). rewrite Z.lor_0_l in X. assert (Y := T _ (proj1 SP)). lia.
    + exists (Z.lor b (2 ^ u)). apply M in H. split; [|symmetry; exact C]. apply sep_form; [exact Nuv|]. exists b. repeat split; apply H.
Qed.
Lemma capacity_one f c c' : capacity n f u v c -> capacity n f u v c' -> c = c'.
Proof. intros (A & S & H & <-) (A' & S' & H' & <-). apply Z.le_antisymm; [apply A|apply A']; assumption. Qed.

(* Push *)
Definition shift (delta S : Z) : Z := (if Z.testbit S v then delta else 0) - (if Z.testbit S u then delta else 0).
Definition pstep (delta : Z) (b : Z) (f : table) : table :=
  let f := upd f (Z.lor b (2 ^ u)) (f (Z.lor b (2 ^ u)) - delta) in upd f (Z.lor b (2 ^ v)) (f (Z.lor b (2 ^ v)) + delta).
Lemma rest_lor_u b : rest b = b -> rest (Z.lor b (2 ^ u)) = b.
Proof.
  intros E. rewrite <- E at 2. apply bits_ext. intros i Hi. rewrite !rest_spec, Z.lor_spec, pow_spec by lia. destruct (Z.testbit b i), (u =? i), (v =? i), (i <? n); reflexivity.
Qed.
Lemma rest_lor_v b : rest b = b -> rest (Z.lor b (2 ^ v)) = b.
Proof.
  intros E. rewrite <- E at 2. apply bits_ext. intros i Hi. rewrite !rest_spec, Z.lor_spec, pow_spec by lia. destruct (Z.testbit b i), (u =? i), (v =? i), (i <? n); reflexivity.
Qed.
Lemma pstep_other delta b f S : rest b = b -> rest S <> b -> pstep delta b f S = f S.
Proof.
  intros E N. unfold pstep, upd. destruct (Z.eqb_spec S (Z.lor b (2 ^ v))) as [->|]; [rewrite rest_lor_v in N by assumption; contradiction|].
  destruct (Z.eqb_spec S (Z.lor b (2 ^ u))) as [->|]; [rewrite rest_lor_u in N by assumption; contradiction|]. reflexivity.
Qed.
Lemma lor_form S w x : within n S -> 0 <= w < n -> (w = u /\ x = v \/ w = v /\ x = u) ->
  (S =? Z.lor (rest S) (2 ^ w)) = Z.testbit S w && ((u =? v) || negb (Z.testbit S x)).
Proof.
  intros W Hw C. destruct (Z.testbit S w && ((u =? v) || negb (Z.testbit S x))) eqn:E.
  - apply Z.eqb_eq. apply andb_true_iff in E. destruct E as [E1 E2]. apply bits_ext. intros i Hi. rewrite Z.lor_spec, rest_spec, pow_spec by lia.
    destruct (Z.eqb_spec w i) as [->|N]; [rewrite orb_true_r; exact E1|]. rewrite orb_false_r.
    destruct (Z.ltb_spec i n); [|rewrite (bit_high n) by assumption; reflexivity]. cbn [andb].
    apply orb_true_iff in E2. destruct (Z.eqb_spec u i), (Z.eqb_spec v i); cbn [negb andb]; rewrite ?andb_true_r, ?andb_false_r; try reflexivity;
    destruct E2 as [E2|E2]; try (apply Z.eqb_eq in E2; destruct C; lia); apply negb_true_iff in E2; replace i with x by (destruct C; lia); exact E2.
  - apply Z.eqb_neq. intros Q. assert (Q' : forall i, 0 <= i -> Z.testbit S i = Z.testbit (Z.lor (rest S) (2 ^ w)) i) by (intros; rewrite <- Q; reflexivity).
    assert (T : Z.testbit S w = true) by (rewrite Q', Z.lor_spec, pow_spec, Z.eqb_refl by lia; apply orb_true_r). rewrite T in E. cbn [andb] in E.
    apply orb_false_iff in E. destruct E as [E1 E2]. apply Z.eqb_neq in E1. apply negb_false_iff in E2. rewrite Q', Z.lor_spec, rest_spec, pow_spec in E2 by (destruct C; lia).
    replace (w =? x) with false in E2 by (symmetry; apply Z.eqb_neq; destruct C; lia). destruct C as [[-> ->]|[-> ->]]; rewrite Z.eqb_refl, !andb_false_r in E2 || rewrite Z.eqb_refl in E2; cbn in E2; rewrite ?andb_false_r in E2; discriminate.
Qed.
Lemma pstep_this delta f S : within n S -> pstep delta (rest S) f S = f S + shift delta S.
Proof.
  intros W. unfold pstep, upd, shift.
  assert (A := lor_form S v u W Hv ltac:(right; split; reflexivity)). assert (B := lor_form S u v W Hu ltac:(left; split; reflexivity)).
  destruct (Z.eqb_spec u v) as [Euv|Nuv].
  - rewrite <- Euv in *. cbn [orb] in *. rewrite Z.eqb_refl. rewrite andb_true_r in B. rewrite B. destruct (Z.testbit S u) eqn:Eu; [|lia]. apply Z.eqb_eq in B. rewrite <- B. lia.
  - cbn [orb] in *.
    assert (N : (Z.lor (rest S) (2 ^ v) =? Z.lor (rest S) (2 ^ u)) = false).
    { apply Z.eqb_neq. intros Q. assert (X : Z.testbit (Z.lor (rest S) (2 ^ v)) v = Z.testbit (Z.lor (rest S) (2 ^ u)) v) by (rewrite Q; reflexivity).
      rewrite !Z.lor_spec, !pow_spec, rest_spec, !Z.eqb_refl, !andb_false_r in X by lia. destruct (Z.eqb_spec u v); [contradiction|]. discriminate. }
    rewrite N, A, B. destruct (Z.testbit S u) eqn:Eu, (Z.testbit S v) eqn:Ev; cbn [andb negb] in *; try lia.
    + apply Z.eqb_eq in B. rewrite <- B. lia.
    + apply Z.eqb_eq in A. rewrite <- A. lia.
Qed.
Lemma pfold_other delta l : forall f S, (forall b, In b l -> rest b = b) -> ~ In (rest S) l -> fold_left (fun f b => pstep delta b f) l f S = f S.
Proof.
  induction l as [|b l IH]; intros f S R N; [reflexivity|]. cbn [fold_left]. rewrite IH; [|intros; apply R; right; assumption|intros I; apply N; right; exact I].
  apply pstep_other; [apply R; left; reflexivity|]. intros E. apply N. left. symmetry. exact E.
Qed.
Lemma pfold_out delta l : forall f S, (forall b, In b l -> within n b) -> ~ within n S -> fold_left (fun f b => pstep delta b f) l f S = f S.
Proof.
  induction l as [|b l IH]; intros f S R N; [reflexivity|]. cbn [fold_left]. rewrite IH; [|intros; apply R; right; assumption|exact N].
  assert (Wb := R b (or_introl eq_refl)). unfold pstep, upd.
  destruct (Z.eqb_spec S (Z.lor b (2 ^ v))) as [->|]; [exfalso; apply N; apply within_lor; [lia|assumption|apply within_pow; lia]|].
  destruct (Z.eqb_spec S (Z.lor b (2 ^ u))) as [->|]; [exfalso; apply N; apply within_lor; [lia|assumption|apply within_pow; lia]|]. reflexivity.
Qed.
Lemma push_table delta f : exists g,
  submasks (Z.to_nat (2 ^ n)) (others n u v) (pstep delta) (others n u v) f = Done g /\ (forall S, within n S -> g S = f S + shift delta S) /\ contained n g f.
Proof.
  destruct free_list as (l & E & D & M). rewrite E. eexists. split; [reflexivity|]. split.
  - intros S W. assert (I : In (rest S) l) by (apply M; split; [apply rest_nonneg|apply rest_rest]). apply in_split in I. destruct I as (l1 & l2 & El). rewrite El in *.
    assert (D1 := D). apply NoDup_remove_2 in D1. rewrite fold_left_app. cbn [fold_left].
    rewrite pfold_other; [|intros b Hb; apply M; rewrite in_app_iff; right; right; exact Hb|intros Hb; apply D1; rewrite in_app_iff; right; exact Hb].
    rewrite pstep_this by exact W. rewrite pfold_other; [reflexivity|intros b Hb; apply M; rewrite in_app_iff; left; exact Hb|intros Hb; apply D1; rewrite in_app_iff; left; exact Hb].
  - intros S W. apply pfold_out; [|exact W]. intros b Hb. apply M in Hb. destruct Hb as [_ <-]. unfold rest. rewrite Z.land_comm. apply within_land; [lia|apply others_within].
Qed.
End Pair.
