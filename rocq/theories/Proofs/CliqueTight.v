From Coq Require Import ZArith List Bool Lia.
From Verif Require Import Lib.Grid Model.Submodular Spec.Submodular Model.Clique Spec.Clique Proofs.Submodular Proofs.SubmodularLinear Proofs.SubmodularNormal Proofs.Clique.
Import ListNotations.
Open Scope Z_scope.

Lemma set_bits (a : Z) l : forall m i, NoDup l -> (forall j, In j l -> 0 <= j) ->
  fold_left (fun m j => if negb (Z.land a (2 ^ j) =? 0) then upd m j a else m) l m i = if existsb (Z.eqb i) l && Z.testbit a i then a else m i.
Proof.
  induction l as [|j l IH]; intros m i D P; [reflexivity|]. cbn [fold_left existsb]. inversion D; subst. rewrite IH; [|assumption|intros; apply P; right; assumption].
  rewrite land_pow, negb_involutive by (apply P; left; reflexivity). unfold upd. destruct (Z.eqb_spec i j) as [->|N].
  - cbn [orb andb]. destruct (Z.testbit a j); rewrite ?andb_true_r, ?andb_false_r; [destruct (existsb (Z.eqb j) l)|]; rewrite ?Z.eqb_refl; reflexivity.
  - cbn [orb]. destruct (existsb (Z.eqb i) l && Z.testbit a i); [reflexivity|]. destruct (Z.testbit a j); [|reflexivity]. destruct (Z.eqb_spec i j); [contradiction|reflexivity].
Qed.
Lemma tight_step_spec n f m a i : tight_step n f m a i = if (f a =? 0) && ((0 <=? i) && (i <? n)) && Z.testbit a i then a else m i.
Proof.
  unfold tight_step. destruct (f a =? 0); cbn [andb]; [|reflexivity]. rewrite set_bits; [|apply nodup_zseq|intros j H; apply in_zrange in H; lia].
  replace (existsb (Z.eqb i) (zrange 0 n)) with ((0 <=? i) && (i <? n)); [reflexivity|]. destruct (existsb (Z.eqb i) (zrange 0 n)) eqn:E.
  - apply existsb_exists in E. destruct E as (x & H & Q). apply Z.eqb_eq in Q. subst x. apply in_zrange in H. destruct (Z.leb_spec 0 i), (Z.ltb_spec i n); try reflexivity; lia.
  - apply not_true_is_false. intros H. apply andb_true_iff in H. destruct H as [H1 H2]. apply Z.leb_le in H1. apply Z.ltb_lt in H2.
    assert (X : existsb (Z.eqb i) (zrange 0 n) = true) by (apply existsb_exists; exists i; split; [apply in_zrange; lia|apply Z.eqb_refl]). congruence.
Qed.
Lemma tight_walk n f m u (k : nat) : 0 <= u < n -> forall a, let M := fold_left (tight_step n f) (rev (zseq a k)) m u in
  (M = m u /\ (forall S, a <= S < a + Z.of_nat k -> f S = 0 -> Z.testbit S u = false)) \/
  (a <= M < a + Z.of_nat k /\ f M = 0 /\ Z.testbit M u = true /\ forall S, a <= S < a + Z.of_nat k -> f S = 0 -> Z.testbit S u = true -> M <= S).
Proof.
  intros Hu. induction k as [|k IH]; intros a; cbv zeta.
  - left. split; [reflexivity|]. intros. lia.
  - rewrite zseq_S. cbn [rev]. rewrite fold_left_app. cbn [fold_left]. rewrite tight_step_spec. replace ((0 <=? u) && (u <? n)) with true by (symmetry; rewrite andb_true_iff, Z.leb_le, Z.ltb_lt; lia).
    rewrite andb_true_r. specialize (IH (a + 1)). cbv zeta in IH. destruct ((f a =? 0) && Z.testbit a u) eqn:E.
    + apply andb_true_iff in E. destruct E as [E1 E2]. apply Z.eqb_eq in E1. right. split; [lia|]. split; [exact E1|]. split; [exact E2|]. intros. lia.
    + assert (NA : f a = 0 -> Z.testbit a u = true -> False) by (intros X Y; rewrite X, Y, Z.eqb_refl in E; discriminate).
      destruct IH as [[I1 I2]|(I1 & I2 & I3 & I4)].
      * left. split; [exact I1|]. intros S HS FS. destruct (Z.eq_dec S a) as [->|N]; [|apply I2; [lia|exact FS]]. destruct (Z.testbit a u) eqn:T; [exfalso; auto|reflexivity].
      * right. split; [lia|]. split; [exact I2|]. split; [exact I3|]. intros S HS FS TS. destruct (Z.eq_dec S a) as [->|N]; [exfalso; auto|]. apply I4; (assumption || lia).
Qed.
Lemma tight_outside n f m l i : ~ 0 <= i < n -> fold_left (tight_step n f) l m i = m i.
Proof.
  intros H. revert m. induction l as [|a l IH]; intros m; [reflexivity|]. cbn [fold_left]. rewrite IH, tight_step_spec.
  replace ((0 <=? i) && (i <? n)) with false; [rewrite andb_false_r; reflexivity|]. symmetry. destruct (Z.leb_spec 0 i), (Z.ltb_spec i n); try reflexivity; lia.
Qed.
Lemma bit_pos S i : 0 <= S -> Z.testbit S i = true -> 1 <= S.
Proof. intros H T. destruct (Z.eq_dec S 0) as [->|]; [rewrite Z.bits_0 in T; discriminate|lia]. Qed.
Lemma subset_le n A B : 0 <= n -> within n A -> within n B -> subset A B -> A <= B.
Proof.
  intros Hn WA WB H. replace A with (Z.land B A); [apply land_below; destruct WB; lia|]. apply bits_ext. intros i Hi. rewrite Z.land_spec. destruct (Z.testbit A i) eqn:E; [|apply andb_false_r].
  rewrite andb_true_r. apply H; assumption.
Qed.
Lemma tight_ok n f m : 1 <= n -> normal n f -> exists M, min_tight n f m = Done M /\ (forall u, 0 <= u < n -> least_tight n f u (M u)) /\ (forall i, ~ 0 <= i < n -> M i = m i).
Proof.
  intros Hn (Sub & Pos & F0 & F1). assert (P := pow_pos n ltac:(lia)). unfold min_tight. destruct (Z.eqb_spec n 0); [lia|]. eexists. split; [reflexivity|]. split.
  - intros u Hu. set (m0 := fun i : Z => _). assert (M0 : m0 u = whole n). { unfold m0. destruct (Z.leb_spec 0 u), (Z.ltb_spec u n); try lia. reflexivity. }
    clearbody m0. assert (WW := within_whole n ltac:(lia)). unfold zrange. assert (T := tight_walk n f m0 u (Z.to_nat (2 ^ n - 1 - 1)) Hu 1). cbv zeta in T.
    set (M := fold_left _ _ _ u) in *. clearbody M. rewrite M0 in T. clear m0 M0. destruct T as [[-> T]|(T1 & T2 & T3 & T4)].
    + split; [exact WW|]. split; [exact F1|]. split; [unfold inside; rewrite whole_spec by lia; apply Z.ltb_lt; lia|]. intros S WS FS IS.
      assert (L := bit_pos S u ltac:(destruct WS; lia) IS).
      destruct (Z_lt_le_dec S (2 ^ n - 1)) as [LT|GE]; [unfold inside in IS; rewrite (T S ltac:(lia) FS) in IS; discriminate|].
      assert (S = whole n) by (unfold whole; destruct WS; lia). subst S. intros i _ H. exact H.
    + assert (WM : within n M) by (split; lia). split; [exact WM|]. split; [exact T2|]. split; [exact T3|]. intros S WS FS IS.
      assert (G := Sub M S WM WS). assert (G1 := Pos _ (within_land n M S ltac:(lia) WM)). assert (G2 := Pos _ (within_lor n M S ltac:(lia) WM WS)).
      assert (FI : f (Z.land M S) = 0) by lia. assert (BI : Z.testbit (Z.land M S) u = true) by (rewrite Z.land_spec, T3; exact IS).
      assert (LI := land_below M S ltac:(lia)). assert (PI := bit_pos _ _ (proj1 LI) BI). assert (X := T4 (Z.land M S) ltac:(lia) FI BI).
      assert (E : Z.land M S = M) by lia. intros i Hi H. unfold inside in *. rewrite <- E, Z.land_spec in H. apply andb_true_iff in H. apply H.
  - intros i Hi. rewrite tight_outside by exact Hi. destruct (Z.leb_spec 0 i), (Z.ltb_spec i n); try reflexivity; lia.
Qed.
Lemma least_one n f u M M' : 0 <= n -> least_tight n f u M -> least_tight n f u M' -> M = M'.
Proof.
  intros Hn (A & B & C & D) (A' & B' & C' & D'). apply Z.le_antisymm; apply (subset_le n); auto.
Qed.
Lemma nonzero_ok n f u v m c : normal n f -> 0 <= u < n -> 0 <= v < n -> least_tight n f u (m u) -> capacity n f u v c -> (nonzero_capacity m u v = true <-> 0 < c).
Proof.
  intros (Sub & Pos & F0 & F1) Hu Hv (M1 & M2 & M3 & M4) (C1 & S0 & C2 & C3). unfold nonzero_capacity. rewrite land_pow, negb_involutive by lia. split.
  - intros I. assert (G := Pos S0 (proj1 C2)). destruct (Z.eq_dec c 0) as [Z0|]; [exfalso|lia]. destruct C2 as (W & I1 & I2). apply I2. apply (M4 S0); [exact W|congruence|exact I1|lia|exact I].
  - intros L. destruct (Z.testbit (m u) v) eqn:E; [reflexivity|exfalso]. assert (X := C1 (m u)). rewrite M2 in X. assert (separates n u v (m u)) by (split; [exact M1|]; split; [exact M3|unfold inside; congruence]).
    specialize (X H). lia.
Qed.

(* Push *)
Lemma weigh_add m p q S : weigh m (fun i => p i + q i) S = weigh m p S + weigh m q S.
Proof. induction m as [|m IH]; cbn [weigh]; [reflexivity|]. rewrite IH. destruct (Z.testbit S (Z.of_nat m)); lia. Qed.
Lemma weigh_psi m p q S : (forall i, 0 <= i < Z.of_nat m -> p i = q i) -> weigh m p S = weigh m q S.
Proof. induction m as [|m IH]; intros H; cbn [weigh]; [reflexivity|]. rewrite IH by (intros; apply H; lia). rewrite H by lia. reflexivity. Qed.
Lemma weigh_point m w d S : 0 <= w -> weigh m (fun i => if i =? w then d else 0) S = if (w <? Z.of_nat m) && Z.testbit S w then d else 0.
Proof.
  intros Hw. induction m as [|m IH]; cbn [weigh].
  - destruct (Z.ltb_spec w (Z.of_nat 0)); [lia|reflexivity].
  - rewrite IH. destruct (Z.eqb_spec (Z.of_nat m) w) as [E|N].
    + subst w. destruct (Z.ltb_spec (Z.of_nat m) (Z.of_nat m)), (Z.ltb_spec (Z.of_nat m) (Z.of_nat (Datatypes.S m))); try lia. cbn [andb]. destruct (Z.testbit S (Z.of_nat m)); lia.
    + destruct (Z.ltb_spec w (Z.of_nat m)), (Z.ltb_spec w (Z.of_nat (Datatypes.S m))); try lia; cbn [andb]; destruct (Z.testbit S (Z.of_nat m)), (Z.testbit S w); lia.
Qed.
Lemma weigh_opp m p S : weigh m (fun i => - p i) S = - weigh m p S.
Proof. induction m as [|m IH]; cbn [weigh]; [reflexivity|]. rewrite IH. destruct (Z.testbit S (Z.of_nat m)); lia. Qed.
Lemma weight_shift n u v delta S : 0 <= u < n -> 0 <= v < n -> weight n (fun i => (if i =? v then delta else 0) + (if i =? u then - delta else 0)) S = shift u v delta S.
Proof.
  intros Hu Hv. unfold weight. rewrite weigh_add, !weigh_point by lia. unfold shift. destruct (Z.ltb_spec v (Z.of_nat (Z.to_nat n))), (Z.ltb_spec u (Z.of_nat (Z.to_nat n))); try lia.
  cbn [andb]. destruct (Z.testbit S u), (Z.testbit S v); lia.
Qed.
Lemma push_ok n c u v delta : 0 <= n < 32 -> 0 <= u < n -> 0 <= v < n -> exists c', push n c u v delta = Done c' /\
  (forall S, within n S -> alpha c' S = alpha c S + shift u v delta S) /\ contained n (alpha c') (alpha c) /\
  (forall S, within n S -> told n (alpha c') (ci c') S = told n (alpha c) (ci c) S) /\ min_tight n (alpha c') (tight c) = Done (tight c').
Proof.
  intros Hn Hu Hv. unfold push. destruct (push_table n u v Hn Hu Hv delta (alpha c)) as (g & E & G & K). unfold pstep in E. cbv zeta in *. rewrite E. cbn [bind].
  destruct (min_tight n g (tight c)) as [m| | |] eqn:T; try (unfold min_tight in T; destruct (Z.eqb_spec n 0); [lia|discriminate]).
  cbn [bind]. eexists. split; [reflexivity|]. cbn [alpha ci tight]. split; [exact G|]. split; [exact K|]. split; [|exact T].
  intros S W. unfold told. rewrite G by exact W.
  assert (X : weight n (upd (upd (ci c) u (ci c u + delta)) v (upd (ci c) u (ci c u + delta) v - delta)) S = weight n (ci c) S - shift u v delta S).
  { rewrite <- (weight_shift n) by lia. unfold weight. enough (Y : forall A B C, A = weigh (Z.to_nat n) (fun i => B i + - C i) S -> A = weigh (Z.to_nat n) B S - weigh (Z.to_nat n) C S) by (apply Y; clear Y; apply weigh_psi; intros i Hi; unfold upd;
      destruct (Z.eqb_spec i v), (Z.eqb_spec i u), (Z.eqb_spec v u); try lia; subst; lia).
    intros A B C ->. rewrite weigh_add, weigh_opp. lia. }
  rewrite X. lia.
Qed.
Lemma shift_normal n f g u v delta c : 0 <= n -> 0 <= u < n -> 0 <= v < n -> normal n f -> (forall S, within n S -> g S = f S + shift u v delta S) ->
  0 <= delta -> (u = v \/ capacity n f u v c /\ delta <= c) -> normal n g.
Proof.
  intros Hn Hu Hv (Sub & Pos & F0 & F1) G D C. split; [|split; [|split]].
  - apply (submodular_linear n (fun i => (if i =? v then delta else 0) + (if i =? u then - delta else 0)) f g 0 Hn); [|exact Sub].
    intros S W. rewrite weight_shift, G by assumption. lia.
  - intros S W. rewrite G by exact W. assert (P := Pos S W). unfold shift. destruct (Z.testbit S u) eqn:Eu, (Z.testbit S v) eqn:Ev; try lia.
    destruct C as [->|[[C1 _] C2]]; [congruence|]. assert (X := C1 S ltac:(split; [exact W|]; split; [exact Eu|unfold inside; congruence])). lia.
  - rewrite G by (apply within_0; lia). rewrite F0. unfold shift. rewrite !Z.bits_0. reflexivity.
  - rewrite G by (apply within_whole; lia). rewrite F1. unfold shift. rewrite !whole_spec by lia. replace (u <? n) with true by (symmetry; apply Z.ltb_lt; lia).
    replace (v <? n) with true by (symmetry; apply Z.ltb_lt; lia). lia.
Qed.
Lemma shift_capacity n f g u v delta c : capacity n f u v c -> (forall S, within n S -> g S = f S + shift u v delta S) -> capacity n g u v (c - delta).
Proof.
  intros (C1 & S0 & C2 & C3) G. assert (X : forall S, separates n u v S -> g S = f S - delta).
  { intros S (W & I1 & I2). rewrite G by exact W. unfold shift. unfold inside in *. rewrite I1. destruct (Z.testbit S v); [contradiction I2; reflexivity|]. lia. }
  split; [intros S H; rewrite X by exact H; specialize (C1 S H); lia|]. exists S0. split; [exact C2|]. rewrite X by exact C2. lia.
Qed.
Lemma shift_back n f g u v delta c : capacity n f v u c -> (forall S, within n S -> g S = f S + shift u v delta S) -> capacity n g v u (c + delta).
Proof.
  intros (C1 & S0 & C2 & C3) G. assert (X : forall S, separates n v u S -> g S = f S + delta).
  { intros S (W & I1 & I2). rewrite G by exact W. unfold shift. unfold inside in *. rewrite I1. destruct (Z.testbit S u); [contradiction I2; reflexivity|]. lia. }
  split; [intros S H; rewrite X by exact H; specialize (C1 S H); lia|]. exists S0. split; [exact C2|]. rewrite X by exact C2. lia.
Qed.
