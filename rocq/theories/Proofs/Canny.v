(* Hysteresis, monotony in the threshold, and what the confidence of an edge is. *)
From Coq Require Import ZArith QArith Qround Qminmax List Bool Lia Lqa.
From Verif Require Import Lib.Grid Model.KeyPoints Spec.KeyPoints Proofs.KeyPoints Model.Canny Spec.Canny.
Import ListNotations.
Open Scope Z_scope.

(* --- filters of one list --- *)
Lemma filter_grows {A} (p q : A -> bool) l : (forall x, In x l -> p x = true -> q x = true) -> (length (filter p l) <= length (filter q l))%nat /\ (length (filter p l) = length (filter q l) -> filter p l = filter q l).
Proof.
  induction l as [|a l IH]; intro H; [ split; auto |]. destruct IH as [L E]; [ intros x I; apply H; now right |]. cbn [filter]. pose proof (H a (or_introl eq_refl)) as Ha.
  destruct (p a), (q a); cbn [length]; try (specialize (Ha eq_refl); discriminate).
  - split; [ lia |]. intro X. now rewrite E by lia.
  - split; [ lia |]. lia.
  - split; [ lia |]. intro X. apply E. lia.
Qed.
Definition kept (i : image) (low : Z) (s : list (Z * Z)) : Prop := exists t, s = filter (fun p => candidate i low p && t p) (pixels i).
Lemma grow_kept i low s : kept i low (grow i low s).
Proof. exists (fun p => existsb (touching p) s). reflexivity. Qed.
Lemma touching_iff p q : touching p q = true <-> adjacent p q.
Proof. unfold touching, adjacent. rewrite andb_true_iff, !Z.leb_le. tauto. Qed.
Lemma touching_self p : touching p p = true.
Proof. apply touching_iff. unfold adjacent. lia. Qed.
Lemma grow_in i low s p : In p (grow i low s) <-> In p (pixels i) /\ candidate i low p = true /\ exists q, In q s /\ adjacent p q.
Proof.
  unfold grow. rewrite filter_In, andb_true_iff, existsb_exists. split.
  - intros (I & C & q & Iq & T). apply touching_iff in T. eauto.
  - intros (I & C & q & Iq & T). apply touching_iff in T. eauto.
Qed.
Lemma kept_in i low s p : kept i low s -> In p s -> In p (pixels i) /\ candidate i low p = true.
Proof. intros (t & ->) I. apply filter_In in I. rewrite andb_true_iff in I. tauto. Qed.
Lemma grow_incl i low s p : kept i low s -> In p s -> In p (grow i low s).
Proof. intros K I. apply grow_in. destruct (kept_in _ _ _ _ K I) as [A B]. split; [ exact A |]. split; [ exact B |]. exists p. split; [ exact I |]. unfold adjacent. lia. Qed.
Lemma grow_length i low s : kept i low s -> (length s <= length (grow i low s))%nat /\ (length s = length (grow i low s) -> s = grow i low s).
Proof.
  intros (t & E). pose proof (filter_grows (fun p => candidate i low p && t p) (fun p => candidate i low p && existsb (touching p) s) (pixels i)) as G. rewrite <- E in G. apply G.
  intros x I H. rewrite andb_true_iff in *. split; [ tauto |]. apply existsb_exists. exists x. split; [| apply touching_self ]. rewrite E. apply filter_In. now rewrite andb_true_iff.
Qed.
Lemma rounds_fix n i low s : s = grow i low s -> rounds n i low s = s.
Proof. revert s. induction n as [|n IH]; intros s E; [ reflexivity |]. cbn [rounds]. rewrite <- E. now apply IH. Qed.
Lemma rounds_done n i low : forall s, kept i low s -> (length (pixels i) <= length s + n)%nat -> rounds n i low s = grow i low (rounds n i low s).
Proof.
  induction n as [|n IH]; intros s K L; cbn [rounds].
  - apply grow_length; [ exact K |]. destruct (grow_length i low s K) as [A _]. destruct (filter_grows (fun p => candidate i low p && existsb (touching p) s) (fun _ => true) (pixels i)) as [B _]; [ auto |]. fold (grow i low s) in B. rewrite filter_all in B by auto. lia.
  - destruct (grow_length i low s K) as [A B]. destruct (Nat.eq_dec (length s) (length (grow i low s))) as [E|N].
    + apply B in E. rewrite <- E. rewrite rounds_fix by exact E. exact E.
    + apply IH; [ apply grow_kept | lia ].
Qed.
Lemma rounds_incl n i low : forall s p, kept i low s -> In p s -> In p (rounds n i low s).
Proof. induction n as [|n IH]; intros s p K I; cbn [rounds]; [ exact I |]. apply IH; [ apply grow_kept | now apply grow_incl ]. Qed.

(* --- hysteresis --- *)
Lemma squared_lt t m : (0 <= t)%Q -> (t <= 32767)%Q -> (squared t < m <-> (t * t < inject_Z m)%Q).
Proof.
  intros P L. assert (E : Qfloor (t * t) < m <-> (t * t < inject_Z m)%Q).
  { destruct (floor_bounds (t * t)) as [A B]. split; intro H.
    - assert (X : (inject_Z (Qfloor (t * t)) + inject_Z 1 <= inject_Z m)%Q) by (rewrite <- inject_Z_plus; apply inj_le; lia). change (inject_Z 1) with 1%Q in X. lra.
    - apply lt_inj. lra. }
  unfold squared. destruct (Qle_bool t 0) eqn:Z0.
  - apply Qle_bool_iff in Z0. assert (T : (t == 0)%Q) by lra. rewrite <- E. rewrite T. reflexivity.
  - rewrite <- E. rewrite (Q.min_l t 32767) by exact L. reflexivity.
Qed.
Lemma pixels_in i p : In p (pixels i) <-> 0 <= fst p < rows i /\ 0 <= snd p < cols i.
Proof. unfold pixels. rewrite in_grid. lia. Qed.
Lemma exceeds_iff i t p : (0 <= t)%Q -> (t <= 32767)%Q -> (exceeds i t p <-> In p (pixels i) /\ candidate i (squared t) p = true).
Proof. intros P L. unfold exceeds, candidate. rewrite pixels_in, andb_true_iff, Z.ltb_lt, squared_lt by assumption. tauto. Qed.
Lemma strong_in i low high p : In p (filter (fun p => candidate i low p && (high <? mag i p)) (pixels i)) <-> In p (pixels i) /\ candidate i low p = true /\ high < mag i p.
Proof. rewrite filter_In, andb_true_iff, Z.ltb_lt. tauto. Qed.
Lemma canny_edge i low high p : (0 <= low)%Q -> (low <= high)%Q -> (high <= 32767)%Q -> (In p (canny i (squared low) (squared high)) <-> edge i low high p).
Proof.
  intros P L H. unfold canny. set (s := filter _ _). assert (K : kept i (squared low) s) by (exists (fun p => squared high <? mag i p); reflexivity). split.
  - assert (G : forall n s', (forall q, In q s' -> edge i low high q) -> forall q, In q (rounds n i (squared low) s') -> edge i low high q).
    { induction n as [|n IH]; intros s' S' q I; cbn [rounds] in I; [ now apply S' |]. apply (IH (grow i (squared low) s')); [| exact I ]. intros r R. apply grow_in in R. destruct R as (A & B & o & O1 & O2). apply Next with o; [ apply exceeds_iff; [ lra | lra | tauto ] | exact O2 | now apply S' ]. }
    apply G. intros q I. unfold s in I. apply strong_in in I. destruct I as (A & B & C). apply Strong; apply exceeds_iff; try lra; [ tauto |]. split; [ exact A |]. unfold candidate in *. rewrite andb_true_iff in *. split; [ tauto | now apply Z.ltb_lt ].
  - intro E. induction E as [p E1 E2|p q E1 A E IH].
    + apply rounds_incl; [ exact K |]. unfold s. apply strong_in. apply exceeds_iff in E1, E2; try lra. unfold candidate in E2. rewrite andb_true_iff, Z.ltb_lt in E2. tauto.
    + rewrite rounds_done by (try exact K; lia). apply grow_in. apply exceeds_iff in E1; try lra. split; [ tauto |]. split; [ tauto |]. exists q. auto.
Qed.
Lemma exceeds_less i t u p : (0 <= t)%Q -> (t <= u)%Q -> exceeds i u p -> exceeds i t p.
Proof. intros P L (A & B & C). split; [ exact A |]. split; [ exact B |]. assert (t * t <= u * u)%Q by nra. lra. Qed.
Lemma edge_less i l l' h h' p : (0 <= l)%Q -> (l <= l')%Q -> (0 <= h)%Q -> (h <= h')%Q -> edge i l' h' p -> edge i l h p.
Proof.
  intros P L Q H E. induction E as [p E1 E2|p q E1 A E IH].
  - apply Strong; eapply exceeds_less; try eassumption; lra.
  - apply Next with q; [ eapply exceeds_less; try eassumption; lra | exact A | exact IH ].
Qed.
Lemma threshold_edge f i t p : (0 < f)%Q -> (f < 1)%Q -> (0 <= t)%Q -> (t <= 32767)%Q -> (In p (apply_threshold f i t) <-> edge i (t * f) t p).
Proof. intros F G P L. unfold apply_threshold. cbv zeta. rewrite (proj2 (Qle_bool_iff 0 t) P). apply canny_edge; nra. Qed.
Lemma threshold_default f i t p : (t < 0)%Q -> (In p (apply_threshold f i t) <-> In p (apply_threshold f i 100)).
Proof. intro N. unfold apply_threshold. cbv zeta. destruct (Qle_bool 0 t) eqn:E; [ apply Qle_bool_iff in E; lra | reflexivity ]. Qed.
Lemma threshold_less f i t u p : (0 < f)%Q -> (f < 1)%Q -> (0 <= t)%Q -> (t <= u)%Q -> (u <= 32767)%Q -> In p (apply_threshold f i u) -> In p (apply_threshold f i t).
Proof. intros F G P L U. rewrite !threshold_edge by lra. apply edge_less; nra. Qed.
Lemma squared_unit t : (0 <= t)%Q -> (t < 1)%Q -> squared t = 0.
Proof.
  intros P L. assert (A : ~ squared t < 0) by (rewrite squared_lt by lra; change (inject_Z 0) with 0%Q; nra). assert (B : squared t < 1) by (rewrite squared_lt by lra; change (inject_Z 1) with 1%Q; nra). lia.
Qed.
Lemma threshold_unit f i t : (0 < f)%Q -> (f < 1)%Q -> (0 <= t)%Q -> (t < 1)%Q -> apply_threshold f i t = apply_threshold f i 0.
Proof.
  intros F G P L. unfold apply_threshold. cbv zeta. rewrite (proj2 (Qle_bool_iff 0 t) P). change (Qle_bool 0 0) with true. cbv iota. rewrite (squared_unit t), (squared_unit (t * f)), (squared_unit 0), (squared_unit (0 * f)) by nra. reflexivity.
Qed.

(* --- votes --- *)
Lemma filter_length_le {A} (p : A -> bool) l : (length (filter p l) <= length l)%nat.
Proof. induction l as [|a l IH]; [ auto |]. cbn [filter]. destruct (p a); cbn [length]; lia. Qed.
Lemma marked_iff p l : marked p l = true <-> In p l.
Proof.
  unfold marked. rewrite existsb_exists. split.
  - intros (q & I & E). rewrite andb_true_iff, !Z.eqb_eq in E. destruct p, q. cbn in E. destruct E as [-> ->]. exact I.
  - intro I. exists p. rewrite !Z.eqb_refl. auto.
Qed.
Lemma vote_sum (b : Z -> bool) n : (n <= 255)%nat -> fold_left (fun v k => Z.min 255 (v + (if b k then 255 else 0) / 255)) (zseq 0 n) 0 = count b (zseq 0 n).
Proof.
  induction n as [|n IH]; intro H; [ reflexivity |]. replace (S n) with (n + 1)%nat by lia. rewrite zseq_app, fold_left_app, IH by lia. unfold count at 2. rewrite filter_app, app_length, Nat2Z.inj_add. fold (count b (zseq 0 n)). rewrite zseq_S. change (zseq (0 + Z.of_nat n + 1) 0) with (@nil Z). cbn [fold_left filter].
  pose proof (filter_length_le b (zseq 0 n)) as L. rewrite zseq_length in L. unfold count. destruct (b (0 + Z.of_nat n)); cbn [length]; change (255 / 255) with 1; change (0 / 255) with 0; lia.
Qed.
Lemma down_closed (b : Z -> bool) n : (forall k m, 0 <= k <= m -> m < Z.of_nat n -> b m = true -> b k = true) -> forall k, 0 <= k < Z.of_nat n -> (b k = true <-> k < count b (zseq 0 n)).
Proof.
  induction n as [|n IH]; intros D k Hk; [ lia |]. replace (S n) with (n + 1)%nat by lia. rewrite zseq_app. unfold count. rewrite filter_app, app_length, Nat2Z.inj_add. fold (count b (zseq 0 n)). rewrite zseq_S. change (zseq (0 + Z.of_nat n + 1) 0) with (@nil Z). cbn [filter].
  pose proof (filter_length_le b (zseq 0 n)) as L. rewrite zseq_length in L. rewrite Z.add_0_l. assert (IH' : forall k, 0 <= k < Z.of_nat n -> (b k = true <-> k < count b (zseq 0 n))) by (apply IH; intros a m A M; apply D; lia).
  destruct (b (Z.of_nat n)) eqn:E; cbn [length].
  - assert (B : forall a, 0 <= a < Z.of_nat (S n) -> b a = true) by (intros a A; apply (D a (Z.of_nat n)); [ lia | lia | exact E ]). rewrite B by exact Hk. split; [| auto ]. intros _.
    unfold count. rewrite filter_all; [ rewrite zseq_length; lia |]. intros a I. apply in_zseq in I. apply B. lia.
  - destruct (Z.eq_dec k (Z.of_nat n)) as [->|N]; [| rewrite IH' by lia; lia ]. rewrite E. unfold count. split; [ discriminate | lia ].
Qed.
Lemma votes_spec f i p k : (0 < f)%Q -> (f < 1)%Q -> 0 <= k < 255 -> (k < votes f i p <-> In p (apply_threshold f i (inject_Z k))).
Proof.
  intros F G Hk. unfold votes, zrange. change (Z.to_nat 255) with 255%nat. rewrite (vote_sum (fun k => marked p (apply_threshold f i (inject_Z k)))) by lia. rewrite <- down_closed with (k := k); [ apply marked_iff | | lia ].
  intros a m A M H. apply marked_iff in H. apply marked_iff. apply (threshold_less f i _ (inject_Z m)); try assumption; [ apply (inj_le 0); lia | apply inj_le; lia | apply (inj_le m 32767); lia ].
Qed.
Lemma votes_range f i p : 0 <= votes f i p <= 255.
Proof.
  unfold votes, zrange. change (Z.to_nat 255) with 255%nat. rewrite (vote_sum (fun k => marked p (apply_threshold f i (inject_Z k)))) by lia. unfold count. match goal with |- context [filter ?b ?l] => pose proof (filter_length_le b l) as L end. rewrite zseq_length in L. lia.
Qed.

(* --- normalisation --- *)
Lemma least_spec l : l <> [] -> In (least l) l /\ forall x, In x l -> least l <= x.
Proof.
  destruct l as [|a l]; [ congruence |]. intros _. cbn [least]. revert a. induction l as [|b l IH]; intro a; cbn [fold_left]; [ split; [ now left | intros x [->|[]]; lia ] |].
  destruct (IH (Z.min a b)) as [A B]. split.
  - destruct A as [A|A]; [| right; now right ]. rewrite <- A. destruct (Z.min_spec a b) as [[_ ->]|[_ ->]]; [ now left | right; now left ].
  - pose proof (B _ (or_introl eq_refl)). intros x [<-|[<-|I]]; [ lia | lia | apply B; now right ].
Qed.
Lemma greatest_spec l : l <> [] -> In (greatest l) l /\ forall x, In x l -> x <= greatest l.
Proof.
  destruct l as [|a l]; [ congruence |]. intros _. cbn [greatest]. revert a. induction l as [|b l IH]; intro a; cbn [fold_left]; [ split; [ now left | intros x [->|[]]; lia ] |].
  destruct (IH (Z.max a b)) as [A B]. split.
  - destruct A as [A|A]; [| right; now right ]. rewrite <- A. destruct (Z.max_spec a b) as [[_ ->]|[_ ->]]; [ right; now left | now left ].
  - pose proof (B _ (or_introl eq_refl)). intros x [<-|[<-|I]]; [ lia | lia | apply B; now right ].
Qed.
Lemma nearest_mono x y : (x <= y)%Q -> nearest x <= nearest y.
Proof.
  intro L. destruct (nearest_rounded x) as [[A B] T], (nearest_rounded y) as [[C D] U]. destruct (Z_le_gt_dec (nearest x) (nearest y)) as [|N]; [ assumption |]. exfalso. assert (N' : nearest y + 1 <= nearest x) by lia. apply inj_le in N'. rewrite inject_Z_plus in N'. change (inject_Z 1) with 1%Q in N'.
  assert (E : (x == y)%Q) by lra. assert (H : nearest x = nearest y); [| lia ]. apply (rounded_unique x); [ apply nearest_rounded |]. destruct (nearest_rounded y) as [[P Q] R]. split; [ lra |]. intros [X|X]; apply R; [ left | right ]; lra.
Qed.
Lemma nearest_apart x y : (x + 1 < y)%Q -> nearest x < nearest y.
Proof. intro L. destruct (nearest_bounds x) as [A B], (nearest_bounds y) as [C D]. apply lt_inj. lra. Qed.
Lemma nearest_eq x y : (x == y)%Q -> nearest x = nearest y.
Proof. intro E. apply Z.le_antisymm; apply nearest_mono; lra. Qed.
Definition stretch (lo hi v : Z) : Q := (inject_Z (v - lo) * (255 / inject_Z (hi - lo)))%Q.
Lemma stretch_diff lo hi a b : (stretch lo hi b - stretch lo hi a == inject_Z (b - a) * (255 / inject_Z (hi - lo)))%Q.
Proof. unfold stretch. unfold Z.sub. rewrite !inject_Z_plus, !inject_Z_opp. ring. Qed.
Lemma scale_ge lo hi : lo < hi -> hi - lo <= 255 -> (1 <= 255 / inject_Z (hi - lo))%Q /\ (hi - lo < 255 -> (1 < 255 / inject_Z (hi - lo))%Q).
Proof.
  intros L H. assert (P : (0 < inject_Z (hi - lo))%Q) by (apply (inj_lt 0); lia). split.
  - apply Qle_shift_div_l; [ exact P |]. rewrite Qmult_1_l. apply (inj_le (hi - lo) 255). exact H.
  - intro H'. apply Qlt_shift_div_l; [ exact P |]. rewrite Qmult_1_l. apply (inj_lt (hi - lo) 255). exact H'.
Qed.
Lemma stretch_order lo hi a b : lo < hi -> hi - lo <= 255 -> a < b -> nearest (stretch lo hi a) < nearest (stretch lo hi b).
Proof.
  intros L H AB. destruct (scale_ge lo hi L H) as [G1 G2]. assert (AB' : (1 <= inject_Z (b - a))%Q) by (apply (inj_le 1); lia). destruct (Z.eq_dec (hi - lo) 255) as [E|N].
  - assert (X : forall v, nearest (stretch lo hi v) = v - lo).
    { intro v. rewrite <- (nearest_int (v - lo)). apply nearest_eq. unfold stretch. rewrite E. change (255 / inject_Z 255)%Q with (255 # 255)%Q. setoid_replace (255 # 255)%Q with 1%Q by reflexivity. ring. }
    rewrite !X. lia.
  - apply nearest_apart. pose proof (stretch_diff lo hi a b) as D. specialize (G2 ltac:(lia)). set (k := (255 / inject_Z (hi - lo))%Q) in *. set (d := inject_Z (b - a)) in *. assert (1 < d * k)%Q by nra. lra.
Qed.
Lemma normal_order v ps p q : (forall x, In x ps -> 0 <= v x <= 255) -> In p ps -> In q ps -> (v p < v q <-> normalised v ps p < normalised v ps q).
Proof.
  intros R P Q. assert (N : map v ps <> []) by (destruct ps; [ destruct P | discriminate ]). destruct (least_spec _ N) as [L1 L2], (greatest_spec _ N) as [G1 G2]. set (lo := least (map v ps)) in *. set (hi := greatest (map v ps)) in *.
  assert (B : forall x, In x ps -> lo <= v x <= hi) by (intros x I; split; [ apply L2 | apply G2 ]; now apply in_map). apply in_map_iff in L1, G1. destruct L1 as (a & La & Ia), G1 as (b & Gb & Ib). pose proof (R a Ia). pose proof (R b Ib). pose proof (B p P). pose proof (B q Q).
  unfold normalised. fold lo hi. destruct (Z.eqb_spec hi lo) as [E|D]; [ lia |]. fold (stretch lo hi (v p)) (stretch lo hi (v q)). split.
  - intro X. apply stretch_order; lia.
  - intro X. destruct (Z_lt_le_dec (v p) (v q)) as [|G]; [ assumption |]. exfalso. destruct (Z.eq_dec (v p) (v q)) as [E|NE]; [ rewrite E in X; lia |]. assert (nearest (stretch lo hi (v q)) < nearest (stretch lo hi (v p))) by (apply stretch_order; lia). lia.
Qed.
Lemma normal_ends v ps : (forall x, In x ps -> 0 <= v x <= 255) -> (exists p q, In p ps /\ In q ps /\ v p <> v q) ->
  (forall p, In p ps -> 0 <= normalised v ps p <= 255 /\ (normalised v ps p = 0 <-> forall q, In q ps -> v p <= v q) /\ (normalised v ps p = 255 <-> forall q, In q ps -> v q <= v p)).
Proof.
  intros R (a & b & Ia & Ib & AB). assert (N : map v ps <> []) by (destruct ps; [ destruct Ia | discriminate ]). destruct (least_spec _ N) as [L1 L2], (greatest_spec _ N) as [G1 G2].
  assert (B : forall x, In x ps -> least (map v ps) <= v x <= greatest (map v ps)) by (intros x I; split; [ apply L2 | apply G2 ]; now apply in_map). pose proof (B a Ia). pose proof (B b Ib). assert (D : least (map v ps) < greatest (map v ps)) by lia.
  apply in_map_iff in L1, G1. destruct L1 as (m & Lm & Im), G1 as (n & Gn & In_). pose proof (R m Im). pose proof (R n In_).
  assert (Zm : normalised v ps m = 0) by (unfold normalised; replace (greatest (map v ps) =? least (map v ps)) with false by lia; rewrite Lm, Z.sub_diag; rewrite (nearest_eq _ (inject_Z 0)) by (change (inject_Z 0) with 0%Q; ring); apply nearest_int).
  assert (Zn : normalised v ps n = 255).
  { unfold normalised. replace (greatest (map v ps) =? least (map v ps)) with false by lia. rewrite Gn. rewrite (nearest_eq _ (inject_Z 255)); [ apply nearest_int |]. change (inject_Z 255) with 255%Q. assert (~ inject_Z (greatest (map v ps) - least (map v ps)) == 0)%Q by (intro X; assert (P : (0 < inject_Z (greatest (map v ps) - least (map v ps)))%Q) by (apply (inj_lt 0); lia); lra). field. exact H3. }
  assert (W : forall x y, In x ps -> In y ps -> v x <= v y -> normalised v ps x <= normalised v ps y) by (intros x y Ix Iy L; destruct (Z_lt_le_dec (normalised v ps y) (normalised v ps x)) as [X|]; [ apply (normal_order v ps y x R Iy Ix) in X; lia | assumption ]).
  intros p P. pose proof (W m p Im P ltac:(rewrite Lm; apply B; exact P)). pose proof (W p n P In_ ltac:(rewrite Gn; apply B; exact P)). split; [ lia |]. split.
  - split; [| intro X; specialize (W p m P Im (X m Im)); lia ]. intros E q Q. destruct (Z_lt_le_dec (v q) (v p)) as [X|]; [| assumption ]. apply (normal_order v ps q p R Q P) in X. pose proof (W m q Im Q ltac:(rewrite Lm; apply B; exact Q)). lia.
  - split; [| intro X; specialize (W n p In_ P (X n In_)); lia ]. intros E q Q. destruct (Z_lt_le_dec (v p) (v q)) as [X|]; [| assumption ]. apply (normal_order v ps p q R P Q) in X. pose proof (W q n Q In_ ltac:(rewrite Gn; apply B; exact Q)). lia.
Qed.
Lemma normal_flat v ps p : (forall x y, In x ps -> In y ps -> v x = v y) -> In p ps -> normalised v ps p = 0.
Proof.
  intros F P. assert (N : map v ps <> []) by (destruct ps; [ destruct P | discriminate ]). destruct (least_spec _ N) as [L1 _], (greatest_spec _ N) as [G1 _]. apply in_map_iff in L1, G1. destruct L1 as (a & La & Ia), G1 as (b & Gb & Ib). unfold normalised. now replace (greatest (map v ps) =? least (map v ps)) with true by (rewrite <- La, <- Gb, (F a b Ia Ib), Z.eqb_refl; reflexivity).
Qed.

(* --- the kernel --- *)
Lemma kernel_value sigma : (0 < sigma)%Q -> exists k, kernel_size sigma = Some (4 * k - 1) /\ (inject_Z k - 1 < sigma /\ sigma <= inject_Z k)%Q /\ 1 <= k.
Proof.
  intro P. exists (Qceiling sigma). pose proof (Qle_ceiling sigma) as A. pose proof (Qceiling_lt sigma) as B. unfold Z.sub in B. rewrite inject_Z_plus in B. change (inject_Z (-(1))) with (-(1))%Q in B. assert (K : 1 <= Qceiling sigma) by (assert (0 < Qceiling sigma); [ apply lt_inj; change (inject_Z 0) with 0%Q; lra | lia ]).
  split; [| split; [ split; lra | exact K ] ]. unfold kernel_size, half_size, default_size. destruct (Qle_bool sigma 0) eqn:E; [ apply Qle_bool_iff in E; lra |]. f_equal. rewrite Z.quot_div_nonneg by lia. symmetry. apply Z.div_unique with 1; lia.
Qed.
Lemma kernel_odd sigma n : kernel_size sigma = Some n -> n mod 2 = 1 /\ 3 <= n /\ n / 2 < half_size sigma.
Proof.
  intro E. assert (P : (0 < sigma)%Q) by (unfold kernel_size in E; destruct (Qle_bool sigma 0) eqn:B; [ discriminate |]; apply Qnot_le_lt; intro L; apply Qle_bool_iff in L; congruence).
  destruct (kernel_value sigma P) as (k & K & _ & G). assert (H : half_size sigma = n) by (unfold kernel_size in E; destruct (Qle_bool sigma 0); [ discriminate | congruence ]). rewrite H. assert (Hn : n = 4 * k - 1) by congruence. rewrite Hn. split; [ symmetry; apply Z.mod_unique with (2 * k - 1); lia |]. split; [ lia |].
  replace ((4 * k - 1) / 2) with (2 * k - 1); [ lia |]. apply Z.div_unique with 1; lia.
Qed.

(* --- a row of four pixels with one faint step --- *)
Definition faint : image := Image 1 4 (fun p => if (snd p =? 1) || (snd p =? 2) then 16 else 0) (fun p => snd p =? 1).
Lemma faint_edge t p : (0 <= t)%Q -> (t <= 32767)%Q -> (In p (apply_threshold (2 # 5) faint t) <-> p = (0, 1) /\ (t * t < 16)%Q).
Proof.
  intros P L. rewrite threshold_edge by lra. assert (X : forall u q, exceeds faint u q -> q = (0, 1) /\ (u * u < 16)%Q).
  { intros u [y x] ([A B] & K & M). cbn in A, B, K, M. apply Z.eqb_eq in K. subst x. cbn in M. split; [ f_equal; lia | exact M ]. }
  split.
  - intro E. induction E as [q E1 E2|q r E1 A E IH]; [ apply X in E2; exact E2 |]. split; [ now apply X in E1 | apply IH ].
  - intros [-> T]. assert (Y : forall u, (u * u < 16)%Q -> exceeds faint u (0, 1)) by (intros u U; split; [ cbn; lia |]; split; [ reflexivity | exact U ]). apply Strong; apply Y; nra.
Qed.
Lemma faint_votes : votes (2 # 5) faint (0, 1) = 4 /\ forall p, p <> (0, 1) -> votes (2 # 5) faint p = 0.
Proof.
  assert (B : forall k, (0 <= inject_Z k)%Q <-> 0 <= k) by (intro k; apply (inj_le 0)). split.
  - assert (A1 : 3 < votes (2 # 5) faint (0, 1)) by (apply votes_spec; [ lra | lra | lia |]; apply faint_edge; [ apply B; lia | apply (inj_le 3 32767); lia |]; split; [ reflexivity | reflexivity ]).
    assert (A2 : ~ 4 < votes (2 # 5) faint (0, 1)); [| lia ]. rewrite votes_spec by (try lra; lia). rewrite faint_edge by (first [ apply B; lia | apply (inj_le 4 32767); lia ]). intros [_ X]. apply Qlt_not_le in X. apply X. apply Qle_bool_iff. reflexivity.
  - intros p N. pose proof (votes_range (2 # 5) faint p). assert (~ 0 < votes (2 # 5) faint p); [| lia ]. rewrite votes_spec by (try lra; lia). rewrite faint_edge by (first [ apply B; lia | apply (inj_le 0 32767); lia ]). tauto.
Qed.
Lemma faint_confidence : confidence (2 # 5) faint (0, 1) = 255 /\ ~ In (0, 1) (apply_threshold (2 # 5) faint 100) /\ ~ In (0, 1) (apply_threshold (2 # 5) faint 4).
Proof.
  destruct faint_votes as [V1 V2]. split.
  - apply (normal_ends (votes (2 # 5) faint) (pixels faint)).
    + intros. apply votes_range.
    + exists (0, 1), (0, 0). split; [ apply pixels_in; cbn; lia |]. split; [ apply pixels_in; cbn; lia |]. rewrite V1, V2 by discriminate. lia.
    + apply pixels_in. cbn. lia.
    + intros q _. assert (D : q = (0, 1) \/ q <> (0, 1)) by (destruct q as [y x]; destruct (Z.eq_dec y 0), (Z.eq_dec x 1); subst; [ now left | right; congruence .. ]). destruct D as [-> | D]; [ lia |]. rewrite (V2 q D), V1. lia.
  - split; intro X; apply faint_edge in X; try lra; destruct X as [_ X]; lra.
Qed.
Lemma default_unused : exists f i t p, (0 < f)%Q /\ (f < 1)%Q /\ (1 < t)%Q /\ In p (apply_threshold f i t) /\ ~ In p (apply_threshold f i 100).
Proof. exists (2 # 5), faint, (3 # 1), (0, 1). split; [ lra |]. split; [ lra |]. split; [ lra |]. split; [ apply faint_edge; [ lra | lra |]; split; [ reflexivity | lra ] | apply faint_confidence ]. Qed.
