From Coq Require Import ZArith List Bool Lia.
From Verif Require Import Lib.Grid Model.Nms Spec.Nms.
Import ListNotations.
Open Scope Z_scope.

Section P.
Variables (f : Z -> Z -> Z) (sel : Z * Z -> bool) (M N W : Z) (pick : list (Z * Z) -> Z * Z).
Hypothesis PK : picks_max f pick.
Hypothesis HW : 0 <= W.
Hypothesis HM : 0 <= M. Hypothesis HN : 0 <= N.
(** nothing selected in a block is harmless only for non-negative values *)
Hypothesis SAFE : (forall y x, 0 <= f y x) \/ (forall p, in_image M N p -> sel p = true).

Lemma starts_in size m : 0 <= size -> (In m (starts W size) <-> exists k, m = k * (W + 1) /\ 0 <= k /\ m < size).
Proof.
  intro S. unfold starts. rewrite in_map_iff. split.
  - intros (k & <- & I). apply in_zrange in I. exists k. split; [ reflexivity |]. split; [ lia |].
    assert (k + 1 <= (size + W) / (W + 1)) by lia. assert ((k + 1) * (W + 1) <= size + W).
    { apply Z.le_trans with ((size + W) / (W + 1) * (W + 1)); [ apply Z.mul_le_mono_nonneg_r; lia |].
      rewrite Z.mul_comm. apply Z.mul_div_le. lia. }
    lia.
  - intros (k & -> & K & L). exists k. split; [ reflexivity |]. apply in_zrange. split; [ lia |]. cbn [Z.add].
    assert (k + 1 <= (size + W) / (W + 1)); [| lia ]. apply Z.div_le_lower_bound; lia.
Qed.
Lemma tile_start size y : 0 <= y < size -> exists k, In (k * (W + 1)) (starts W size) /\ k = y / (W + 1) /\ k * (W + 1) <= y < k * (W + 1) + W + 1.
Proof.
  intro Y. exists (y / (W + 1)). pose proof (Z.div_mod y (W + 1) ltac:(lia)) as D. pose proof (Z.mod_pos_bound y (W + 1) ltac:(lia)).
  split; [| split; [ reflexivity | lia ]]. apply starts_in; [ lia |]. exists (y / (W + 1)). split; [ reflexivity |]. split; [ apply Z.div_pos; lia | lia ].
Qed.
Lemma div_tile y k : k * (W + 1) <= y < k * (W + 1) + W + 1 -> y / (W + 1) = k.
Proof. intro H. symmetry. apply Z.div_unique with (y - k * (W + 1)); lia. Qed.

Lemma in_block_iff k l p : 0 <= k -> 0 <= l -> (In p (block M N W (k * (W + 1)) (l * (W + 1))) <-> in_image M N p /\ fst p / (W + 1) = k /\ snd p / (W + 1) = l).
Proof.
  intros K L. unfold block. rewrite in_grid. unfold in_image. split.
  - intros [A B]. assert (0 <= k * (W + 1)) by (apply Z.mul_nonneg_nonneg; lia). assert (0 <= l * (W + 1)) by (apply Z.mul_nonneg_nonneg; lia).
    split; [ lia |]. split; apply div_tile; lia.
  - intros ([A B] & E1 & E2). pose proof (Z.div_mod (fst p) (W + 1) ltac:(lia)) as D1. pose proof (Z.mod_pos_bound (fst p) (W + 1) ltac:(lia)).
    pose proof (Z.div_mod (snd p) (W + 1) ltac:(lia)) as D2. pose proof (Z.mod_pos_bound (snd p) (W + 1) ltac:(lia)). rewrite E1 in D1. rewrite E2 in D2. lia.
Qed.
(** neighbourhood of a candidate of the block, one axis at a time *)
Lemma win_axis size c p : lo W c <= p < lo W c + (hi W c size - lo W c) <-> 0 <= p < size /\ Z.abs (p - c) <= W.
Proof. unfold lo, hi. lia. Qed.
Lemma blank_axis size m c p : m <= c < m + (Z.min (m + W + 1) size - m) -> 0 <= p < size -> Z.abs (p - c) <= W ->
  ((m - lo W c <=? p - lo W c) && (p - lo W c <? Z.min (m - lo W c + W + 1) (hi W c size - lo W c)) = true <-> m <= p < m + (Z.min (m + W + 1) size - m)).
Proof. intros C P A. rewrite andb_true_iff, Z.leb_le, Z.ltb_lt. unfold hi. generalize (lo W c). intro u. lia. Qed.
Lemma around_iff k l c p : 0 <= k -> 0 <= l -> In c (block M N W (k * (W + 1)) (l * (W + 1))) ->
  (In p (around sel M N W (k * (W + 1)) (l * (W + 1)) c) <-> in_image M N p /\ sel p = true /\ close W p c /\ ~ In p (block M N W (k * (W + 1)) (l * (W + 1)))).
Proof.
  intros K L C. unfold around. rewrite filter_In, andb_true_iff, negb_true_iff, <- not_true_iff_false. unfold blanked, block in *. rewrite in_grid in C. rewrite !in_grid. cbv zeta.
  unfold close, in_image. rewrite !win_axis. destruct C as [Cy Cx].
  set (by_ := (_ <=? fst p - _) && _). set (bx_ := (_ <=? snd p - _) && _). rewrite (andb_true_iff by_ bx_).
  split.
  - intros (((A1 & A2) & A3 & A4) & S & B). repeat (split; [ tauto |]). intros [D1 D2]. apply B. split; apply blank_axis; assumption.
  - intros ((A1 & A3) & S & (A2 & A4) & B). repeat (split; [ tauto |]). intros [D1 D2]. apply B. split; [ apply (blank_axis M (k * (W + 1)) (fst c)) | apply (blank_axis N (l * (W + 1)) (snd c)) ]; assumption.
Qed.

Lemma max_val_ge l q : In q l -> f (fst q) (snd q) <= max_val f pick l.
Proof. intro I. unfold max_val, at_. destruct l as [|a l]; [ destruct I |]. apply PK; [ congruence | exact I ]. Qed.
Lemma max_val_in l : l <> [] -> exists q, In q l /\ max_val f pick l = f (fst q) (snd q).
Proof. intro NE. exists (pick l). split; [ now apply PK |]. unfold max_val, at_. destruct l; congruence. Qed.

Notation nb k l := (nms_block f sel M N W pick (k * (W + 1)) (l * (W + 1))).
Notation blk k l := (block M N W (k * (W + 1)) (l * (W + 1))).
Notation ar k l c := (around sel M N W (k * (W + 1)) (l * (W + 1)) c).

Lemma block_result k l : 0 <= k -> 0 <= l -> k * (W + 1) < M -> l * (W + 1) < N ->
  (exists c, In c (blk k l) /\ sel c = true /\ (forall q, In q (blk k l) -> sel q = true -> f (fst q) (snd q) <= f (fst c) (snd c)) /\
     c = pick (filter sel (blk k l)) /\
     nb k l = if max_val f pick (ar k l c) <? f (fst c) (snd c) then Some [c] else Some []) \/
  ((forall q, In q (blk k l) -> sel q = false) /\ nb k l = Some []).
Proof.
  intros K L KM LN. unfold nms_block. cbv zeta.
  destruct (filter sel (blk k l)) as [|a r] eqn:E.
  - right. assert (NS : forall q, In q (blk k l) -> sel q = false).
    { intros q I. destruct (sel q) eqn:S; auto. assert (In q []) by (rewrite <- E; apply filter_In; auto). contradiction. }
    split; auto. destruct SAFE as [P|A].
    + cbn [max_val max_loc]. assert (0 <= max_val f pick (ar k l (k * (W + 1) - 1, l * (W + 1) - 1))).
      { destruct (ar k l (k * (W + 1) - 1, l * (W + 1) - 1)) as [|b s] eqn:F; [ cbn; lia |]. unfold max_val, at_. apply P. }
      destruct (Z.ltb_spec (max_val f pick (ar k l (k * (W + 1) - 1, l * (W + 1) - 1))) 0); [ lia | reflexivity ].
    + exfalso. assert (I : In (k * (W + 1), l * (W + 1)) (blk k l)).
      { apply in_block_iff; auto. unfold in_image. cbn [fst snd]. assert (0 <= k * (W + 1)) by (apply Z.mul_nonneg_nonneg; lia). assert (0 <= l * (W + 1)) by (apply Z.mul_nonneg_nonneg; lia).
        rewrite !Z.div_mul by lia. lia. }
      pose proof (NS _ I) as S. rewrite A in S; [ discriminate |]. apply in_block_iff in I; auto. tauto.
  - left. exists (pick (a :: r)). destruct (PK (a :: r) ltac:(congruence)) as [I Mx]. rewrite <- E in I at 2. apply filter_In in I. destruct I as [I S].
    split; [ exact I |]. split; [ exact S |]. split.
    + intros q Iq Sq. apply Mx. rewrite <- E. apply filter_In. auto.
    + split; [ reflexivity |]. cbn [max_val max_loc]. unfold at_. destruct (_ <? _) eqn:C; [| reflexivity ].
      apply in_block_iff in I; auto. destruct I as [[J1 J2] _].
      replace ((0 <=? fst (pick (a :: r))) && (fst (pick (a :: r)) <? M) && ((0 <=? snd (pick (a :: r))) && (snd (pick (a :: r)) <? N))) with true; [ reflexivity |].
      symmetry. rewrite !andb_true_iff, !Z.leb_le, !Z.ltb_lt. lia.
Qed.

Lemma fold_nms : forall l a, (forall b, In b l -> exists c, nms_block f sel M N W pick (fst b) (snd b) = Some c) ->
  exists r, fold_left (fun acc b => match acc, nms_block f sel M N W pick (fst b) (snd b) with Some a, Some c => Some (a ++ c) | _, _ => None end) l (Some a) = Some r /\
    forall p, In p r <-> In p a \/ exists b c, In b l /\ nms_block f sel M N W pick (fst b) (snd b) = Some c /\ In p c.
Proof.
  induction l as [|b l IH]; intros a H; cbn [fold_left].
  - exists a. split; auto. intro p. split; auto. intros [I|(b & c & [] & _)]; auto.
  - destruct (H b (or_introl eq_refl)) as [c E]. rewrite E. destruct (IH (a ++ c) (fun b' I => H b' (or_intror I))) as (r & R & Q).
    exists r. split; auto. intro p. rewrite Q, in_app_iff. split.
    + intros [[I|I]|(b' & c' & I & E' & J)]; auto.
      * right. exists b, c. split; [ now left | auto ].
      * right. exists b', c'. split; [ now right | auto ].
    + intros [I|(b' & c' & [<-|I] & E' & J)]; auto.
      * left. right. congruence.
      * right. exists b', c'. auto.
Qed.
Lemma blocks_form b : In b (list_prod (starts W M) (starts W N)) <->
  exists k l, b = (k * (W + 1), l * (W + 1)) /\ 0 <= k /\ 0 <= l /\ k * (W + 1) < M /\ l * (W + 1) < N.
Proof.
  destruct b as [m n]. rewrite in_prod_iff, !starts_in by assumption. split.
  - intros [(k & -> & K & KM) (l & -> & L & LN)]. exists k, l. auto.
  - intros (k & l & E & K & L & KM & LN). assert (m = k * (W + 1)) by congruence. assert (n = l * (W + 1)) by congruence. subst. split; eauto.
Qed.
Lemma nms_defined : exists r, nms f sel M N W pick = Some r /\
  forall p, In p r <-> exists k l, 0 <= k /\ 0 <= l /\ k * (W + 1) < M /\ l * (W + 1) < N /\ nb k l = Some [p].
Proof.
  destruct (fold_nms (list_prod (starts W M) (starts W N)) []) as (r & R & Q).
  - intros b I. apply blocks_form in I. destruct I as (k & l & -> & K & L & KM & LN). cbn [fst snd].
    destruct (block_result k l K L KM LN) as [(c & _ & _ & _ & _ & E)|(_ & E)]; [ destruct (_ <? _) in E |]; eauto.
  - exists r. split; [ exact R |]. intro p. rewrite Q. split.
    + intros [[]|(b & c & I & E & J)]. apply blocks_form in I. destruct I as (k & l & -> & K & L & KM & LN). cbn [fst snd] in E.
      exists k, l. repeat split; auto. destruct (block_result k l K L KM LN) as [(c' & _ & _ & _ & _ & E')|(_ & E')].
      * destruct (_ <? _) in E'; assert (Ec : Some c = Some _) by (rewrite <- E; exact E').
        -- assert (c = [c']) by congruence. subst c. destruct J as [<-|[]]. exact E'.
        -- assert (c = []) by congruence. subst. destruct J.
      * assert (c = []) by congruence. subst. destruct J.
    + intros (k & l & K & L & KM & LN & E). right. exists (k * (W + 1), l * (W + 1)), [p]. split; [ apply blocks_form; exists k, l; auto |]. split; [ exact E | now left ].
Qed.
Lemma mark_inv k l p : 0 <= k -> 0 <= l -> k * (W + 1) < M -> l * (W + 1) < N -> nb k l = Some [p] ->
  In p (blk k l) /\ sel p = true /\ (forall q, In q (blk k l) -> sel q = true -> f (fst q) (snd q) <= f (fst p) (snd p)) /\
  max_val f pick (ar k l p) < f (fst p) (snd p).
Proof.
  intros K L KM LN E. destruct (block_result k l K L KM LN) as [(c & I & S & Mx & _ & E')|(_ & E')].
  - destruct (Z.ltb_spec (max_val f pick (ar k l c)) (f (fst c) (snd c))) as [V|V].
    + assert (c = p) by congruence. subst. auto.
    + congruence.
  - congruence.
Qed.
Theorem nms_sound r : nms f sel M N W pick = Some r -> forall p, In p r ->
  in_image M N p /\ sel p = true /\
  (forall q, in_image M N q -> sel q = true -> close W q p -> q <> p ->
     (same_tile W q p -> f (fst q) (snd q) <= f (fst p) (snd p)) /\ (~ same_tile W q p -> f (fst q) (snd q) < f (fst p) (snd p))).
Proof.
  intros E p Ip. destruct nms_defined as (r' & E' & Q). assert (r' = r) by congruence. subst r'.
  apply Q in Ip. destruct Ip as (k & l & K & L & KM & LN & B). destruct (mark_inv k l p K L KM LN B) as (I & S & Mx & V).
  pose proof (proj1 (in_block_iff k l p K L) I) as (J & T1 & T2). split; [ exact J |]. split; [ exact S |].
  intros q Jq Sq Cq Nq. split.
  - intros [U1 U2]. apply Mx; auto. apply in_block_iff; auto. rewrite U1, U2. auto.
  - intro NT. apply Z.le_lt_trans with (max_val f pick (ar k l p)); [| exact V ].
    apply max_val_ge. apply around_iff; auto. repeat split; try apply Jq; try apply Cq; auto.
    intro Iq. apply in_block_iff in Iq; auto. apply NT. unfold same_tile. rewrite T1, T2. tauto.
Qed.
Theorem nms_complete r : nms f sel M N W pick = Some r -> forall p, in_image M N p -> sel p = true ->
  (forall q, in_image M N q -> sel q = true -> close W q p -> q <> p -> f (fst q) (snd q) < f (fst p) (snd p)) ->
  (0 < f (fst p) (snd p) \/ exists q, in_image M N q /\ sel q = true /\ close W q p /\ ~ same_tile W q p) ->
  In p r.
Proof.
  intros E p J S Mx NE. destruct nms_defined as (r' & E' & Q). assert (r' = r) by congruence. subst r'. apply Q.
  destruct (tile_start M (fst p) (proj1 J)) as (k & Ik & Ek & Bk). destruct (tile_start N (snd p) (proj2 J)) as (l & Il & El & Bl).
  apply starts_in in Ik; auto. apply starts_in in Il; auto.
  assert (K : 0 <= k) by (subst k; apply Z.div_pos; destruct J; lia). assert (L : 0 <= l) by (subst l; apply Z.div_pos; destruct J; lia).
  assert (KM : k * (W + 1) < M) by (destruct J; lia). assert (LN : l * (W + 1) < N) by (destruct J; lia).
  exists k, l. repeat split; auto.
  assert (Ip : In p (blk k l)) by (apply in_block_iff; auto).
  destruct (block_result k l K L KM LN) as [(c & I & Sc & Mc & _ & B)|(NS & _)]; [| rewrite NS in S; [ discriminate | exact Ip ]].
  assert (c = p).
  { destruct (Z.eq_dec (fst c) (fst p)) as [E1|E1]; [ destruct (Z.eq_dec (snd c) (snd p)) as [E2|E2] |]; [ destruct c, p; cbn in *; congruence | |].
    - exfalso. pose proof (Mc p Ip S). apply in_block_iff in I; auto. destruct I as (Jc & T1 & T2).
      assert (CL : close W c p).
      { unfold close. pose proof (Z.div_mod (snd c) (W + 1) ltac:(lia)). pose proof (Z.mod_pos_bound (snd c) (W + 1) ltac:(lia)). rewrite T2 in *. lia. }
      pose proof (Mx c Jc Sc CL ltac:(congruence)). lia.
    - exfalso. pose proof (Mc p Ip S). apply in_block_iff in I; auto. destruct I as (Jc & T1 & T2).
      assert (CL : close W c p).
      { unfold close. pose proof (Z.div_mod (snd c) (W + 1) ltac:(lia)). pose proof (Z.mod_pos_bound (snd c) (W + 1) ltac:(lia)).
        pose proof (Z.div_mod (fst c) (W + 1) ltac:(lia)). pose proof (Z.mod_pos_bound (fst c) (W + 1) ltac:(lia)). rewrite T1, T2 in *. lia. }
      pose proof (Mx c Jc Sc CL ltac:(congruence)). lia. }
  subst c. rewrite B. destruct (Z.ltb_spec (max_val f pick (ar k l p)) (f (fst p) (snd p))) as [V|V]; [ reflexivity |]. exfalso.
  destruct (ar k l p) as [|a s] eqn:A.
  - cbn [max_val] in V. destruct NE as [P|(q & Jq & Sq & Cq & Tq)]; [ lia |].
    assert (In q (ar k l p)).
    { apply around_iff; auto. repeat split; try apply Jq; try apply Cq; auto. intro Iq. apply in_block_iff in Iq; auto. apply Tq. unfold same_tile. rewrite <- Ek, <- El. tauto. }
    rewrite A in *. contradiction.
  - destruct (max_val_in (a :: s) ltac:(congruence)) as (q & Iq & Vq). rewrite Vq in V. rewrite <- A in Iq. apply around_iff in Iq; auto. destruct Iq as (Jq & Sq & Cq & Nq).
    assert (q <> p) by (intro; subst; contradiction). specialize (Mx q Jq Sq Cq H). lia.
Qed.
Theorem nms_separated r : nms f sel M N W pick = Some r -> forall p q, In p r -> In q r -> close W p q -> p = q.
Proof.
  intros E p q Ip Iq C. pose proof (nms_sound r E p Ip) as (Jp & Sp & Mp). pose proof (nms_sound r E q Iq) as (Jq & Sq & Mq).
  destruct (Z.eq_dec (fst p) (fst q)) as [E1|E1]; [ destruct (Z.eq_dec (snd p) (snd q)) as [E2|E2]; [ destruct p, q; cbn in *; congruence |] |].
  all: assert (D : p <> q) by (intro; subst; congruence).
  all: assert (C' : close W q p) by (unfold close in *; lia).
  all: destruct (Z.eq_dec (fst p / (W + 1)) (fst q / (W + 1))) as [T1|T1]; [ destruct (Z.eq_dec (snd p / (W + 1)) (snd q / (W + 1))) as [T2|T2] |].
  all: try (exfalso; assert (NT : ~ same_tile W p q) by (unfold same_tile; tauto); assert (NT' : ~ same_tile W q p) by (unfold same_tile in *; intuition congruence);
    pose proof (proj2 (Mp q Jq Sq C' ltac:(congruence)) NT'); pose proof (proj2 (Mq p Jp Sp C ltac:(congruence)) NT); lia).
  all: destruct nms_defined as (r' & E' & Q); assert (r' = r) by congruence; subst r'; apply Q in Ip; apply Q in Iq;
    destruct Ip as (k & l & K & L & KM & LN & B); destruct Iq as (k' & l' & K' & L' & KM' & LN' & B');
    destruct (mark_inv k l p K L KM LN B) as (I & _); destruct (mark_inv k' l' q K' L' KM' LN' B') as (I' & _);
    apply in_block_iff in I; auto; apply in_block_iff in I'; auto; destruct I as (_ & A1 & A2); destruct I' as (_ & A1' & A2');
    assert (k = k') by congruence; assert (l = l') by congruence; subst k' l'; congruence.
Qed.
End P.

(** ** local maxima along lines *)
Lemma u64_form x : exists q, u64 x = x + q * 18446744073709551616.
Proof. exists (- (x / 18446744073709551616)). unfold u64. rewrite Z.mod_eq by lia. ring. Qed.
Lemma u64_cong x y q : x = y + q * 18446744073709551616 -> u64 x = u64 y.
Proof. intros ->. unfold u64. apply Z_mod_plus_full. Qed.
Lemma elem_addr_step base sz s step : elem_addr base sz (u64 (u64 s * step)) = u64 (base + sz * (s * step)).
Proof.
  unfold elem_addr. destruct (u64_form s) as [a ->]. destruct (u64_form ((s + a * 18446744073709551616) * step)) as [b ->].
  match goal with |- u64 (base + u64 ?e) = _ => destruct (u64_form e) as [c ->] end.
  apply (u64_cong _ _ (sz * (a * step + b) + c)). ring.
Qed.
Lemma elem_addr_diag base sz a c b r : elem_addr base sz (u64 (u64 (u64 a * c) + u64 (u64 b * r))) = u64 (base + sz * (a * c + b * r)).
Proof.
  unfold elem_addr. destruct (u64_form a) as [q1 ->]. destruct (u64_form b) as [q2 ->].
  destruct (u64_form ((a + q1 * 18446744073709551616) * c)) as [q3 ->]. destruct (u64_form ((b + q2 * 18446744073709551616) * r)) as [q4 ->].
  match goal with |- u64 (base + u64 (sz * u64 ?e)) = _ => destruct (u64_form e) as [q5 ->] end.
  match goal with |- u64 (base + u64 ?e) = _ => destruct (u64_form e) as [q6 ->] end.
  apply (u64_cong _ _ (sz * (q1 * c + q2 * r + q3 + q4 + q5) + q6)). ring.
Qed.
Lemma forallb_seq (p : nat -> bool) H : forallb p (seq 0 H) = true <-> forall n, (n < H)%nat -> p n = true.
Proof. rewrite forallb_forall. split; intros A n L; apply A; [ apply in_seq; lia | apply in_seq in L; lia ]. Qed.
Theorem locmax_line_ok mem base sz step H :
  (forall k, - Z.of_nat H <= k <= Z.of_nat H -> 0 <= base + sz * (k * step) < 2^64) ->
  locmax_line mem base sz step H = true <-> line_max (fun k => mem (base + sz * (k * step))) (Z.of_nat H).
Proof.
  intro R. assert (A : forall k, - Z.of_nat H <= k <= Z.of_nat H -> u64 (base + sz * (k * step)) = base + sz * (k * step)) by (intros k B; apply Z.mod_small; apply R; exact B).
  unfold locmax_line, line_max. rewrite andb_true_iff, !forallb_seq.
  replace (mem (base + sz * (0 * step))) with (mem base) by (f_equal; ring).
  split.
  - intros [P Q] k B. specialize (P (Z.to_nat (k - 1)) ltac:(lia)). specialize (Q (Z.to_nat (k - 1)) ltac:(lia)). cbv beta in P, Q.
    rewrite elem_addr_step in P, Q. apply Z.ltb_lt in P. apply Z.leb_le in Q.
    replace (- Z.of_nat (Z.to_nat (k - 1)) - 1) with (- k) in P by lia. replace (Z.of_nat (Z.to_nat (k - 1)) + 1) with k in Q by lia.
    rewrite A in P, Q by lia. auto.
  - intro P. split; intros n L; rewrite elem_addr_step, A by lia; specialize (P (Z.of_nat n + 1) ltac:(lia)).
    + apply Z.ltb_lt. replace (- Z.of_nat n - 1) with (- (Z.of_nat n + 1)) by lia. tauto.
    + apply Z.leb_le. tauto.
Qed.
Theorem locmax_diag_ok (inv : bool) mem base sz cs rs H :
  let d := (if inv then -1 else 1) * cs + rs in
  (forall k, - Z.of_nat H <= k <= Z.of_nat H -> 0 <= base + sz * (k * d) < 2^64) ->
  locmax_diag inv mem base sz cs rs H = true <-> line_max (fun k => mem (base + sz * (k * d))) (Z.of_nat H).
Proof.
  intros d R. assert (A : forall k, - Z.of_nat H <= k <= Z.of_nat H -> u64 (base + sz * (k * d)) = base + sz * (k * d)) by (intros k B; apply Z.mod_small; apply R; exact B).
  assert (G : forall k, (if inv then -1 else 1) * k * cs + k * rs = k * d) by (intro k; unfold d; ring).
  unfold locmax_diag, line_max. cbv zeta. rewrite andb_true_iff, !forallb_seq.
  replace (mem (base + sz * (0 * d))) with (mem base) by (f_equal; ring).
  split.
  - intros [P Q] k B. specialize (P (Z.to_nat (k - 1)) ltac:(lia)). specialize (Q (Z.to_nat (k - 1)) ltac:(lia)). cbv beta in P, Q.
    rewrite elem_addr_diag in P, Q. rewrite G in P, Q. apply Z.ltb_lt in P. apply Z.leb_le in Q.
    replace (- Z.of_nat (Z.to_nat (k - 1)) - 1) with (- k) in P by lia. replace (Z.of_nat (Z.to_nat (k - 1)) + 1) with k in Q by lia.
    rewrite A in P, Q by lia. auto.
  - intro P. split; intros n L; rewrite elem_addr_diag, G, A by lia; specialize (P (Z.of_nat n + 1) ltac:(lia)).
    + apply Z.ltb_lt. replace (- Z.of_nat n - 1) with (- (Z.of_nat n + 1)) by lia. tauto.
    + apply Z.leb_le. tauto.
Qed.
Theorem line_max_unique (v : Z -> Z) H i j : line_max (fun k => v (i + k)) H -> line_max (fun k => v (j + k)) H -> Z.abs (i - j) <= H -> i = j.
Proof.
  intros A B D. destruct (Z.lt_trichotomy i j) as [C|[C|C]]; auto; exfalso.
  - destruct (A (j - i) ltac:(lia)) as [_ A2]. destruct (B (j - i) ltac:(lia)) as [B1 _]. cbv beta in *.
    replace (i + (j - i)) with j in A2 by ring. replace (j + - (j - i)) with i in B1 by ring. rewrite Z.add_0_r in *. lia.
  - destruct (A (i - j) ltac:(lia)) as [A1 _]. destruct (B (i - j) ltac:(lia)) as [_ B2]. cbv beta in *.
    replace (j + (i - j)) with i in B2 by ring. replace (i + - (i - j)) with j in A1 by ring. rewrite Z.add_0_r in *. lia.
Qed.
