From Coq Require Import ZArith QArith Qabs Qfield List Bool Lia Lqa Permutation.
From Verif Require Import Lib.Grid Model.Metrics Spec.Metrics Spec.MetricsTree Proofs.Metrics.
Import ListNotations.
Open Scope Z_scope.

Definition in_scope (t : etype) (p : flt * flt * option Z) : bool := let '(_, g, r) := p in valid_gt t g && roi_ok r.
Definition error_of (p : flt * flt * option Z) : flt := let '(i, g, _) := p in abs_diff i g.
Lemma add_map_ok t : forall px e, u64 (nDCs e) ->
  add_map t e px = DE (vErrors e ++ map error_of (filter (in_scope t) px)) (wrap (nDCs e + count (fun p => negb (in_scope t p)) px)).
Proof.
  unfold add_map. induction px as [|[[i g] r] px IH]; intros e U.
  - cbn. rewrite app_nil_r, Z.add_0_r, wrap_small by auto. now destruct e.
  - cbn [fold_left]. unfold add_pixel. fold (roi_ok r). rewrite count_cons. cbn [filter]. change (valid_gt t g && roi_ok r) with (in_scope t (i, g, r)). destruct (in_scope t (i, g, r)).
    + rewrite IH by (cbn [nDCs]; auto). cbn [vErrors nDCs map negb error_of]. rewrite <- app_assoc. reflexivity.
    + rewrite IH by (cbn [nDCs]; apply wrap_range). cbn [vErrors nDCs map negb]. rewrite wrap_l. f_equal. f_equal. lia.
Qed.
Lemma scope_partition t px : Z.of_nat (length (map error_of (filter (in_scope t) px))) + count (fun p => negb (in_scope t p)) px = Z.of_nat (length px).
Proof.
  induction px as [|p px IH]; [ reflexivity |]. rewrite count_cons. cbn [filter]. destruct (in_scope t p); cbn [map length negb]; lia.
Qed.
Lemma above_antitone m m' v : (m <= m')%Q -> above m' v = true -> above m v = true.
Proof.
  destruct v as [q|]; cbn; [| discriminate ]. rewrite !negb_true_iff. intros L H. destruct (Qle_bool q m) eqn:E; auto. apply Qle_bool_iff in E.
  assert (K : Qle_bool q m' = true) by (apply Qle_bool_iff; lra). congruence.
Qed.
Lemma len_pos {A} (a : A) l : 0 < Z.of_nat (length (a :: l)).
Proof. cbn [length]. lia. Qed.
Lemma percent_value l m : l <> [] -> (CalcPercentBad l m * inject_Z (Z.of_nat (length l)) == 100 * inject_Z (count (above m) l))%Q.
Proof.
  destruct l as [|a l]; [ congruence |]. intros _. unfold CalcPercentBad. pose proof (injZ_pos _ (len_pos a l)). field. lra.
Qed.
Theorem percent_range l m : (0 <= CalcPercentBad l m <= 100)%Q.
Proof.
  destruct l as [|a l]; [ cbn; split; discriminate |]. pose proof (percent_value (a :: l) m ltac:(discriminate)) as E. pose proof (injZ_pos _ (len_pos a l)) as P.
  pose proof (injZ_le 0 _ (count_nonneg (above m) (a :: l))) as L0. pose proof (injZ_le _ _ (count_le (above m) (a :: l))) as L1. change (inject_Z 0) with 0%Q in L0.
  revert E P L0 L1. generalize (CalcPercentBad (a :: l) m), (inject_Z (Z.of_nat (length (a :: l)))), (inject_Z (count (above m) (a :: l))). intros x n c E P L0 L1. split; nra.
Qed.
Theorem percent_antitone l m m' : (m <= m')%Q -> (CalcPercentBad l m' <= CalcPercentBad l m)%Q.
Proof.
  intro L. destruct l as [|a l]; [ cbn; discriminate |]. pose proof (percent_value (a :: l) m ltac:(discriminate)) as E. pose proof (percent_value (a :: l) m' ltac:(discriminate)) as E'. pose proof (injZ_pos _ (len_pos a l)) as P.
  assert (C : count (above m') (a :: l) <= count (above m) (a :: l)) by (apply count_mono; intros v _; now apply above_antitone). apply injZ_le in C.
  revert E E' P C. generalize (CalcPercentBad (a :: l) m), (CalcPercentBad (a :: l) m'), (inject_Z (Z.of_nat (length (a :: l)))), (inject_Z (count (above m) (a :: l))), (inject_Z (count (above m') (a :: l))). intros x y n c c' E E' P C. nra.
Qed.
Theorem percent_merge l l' m : (CalcPercentBad (l ++ l') m * inject_Z (Z.of_nat (length (l ++ l'))) == CalcPercentBad l m * inject_Z (Z.of_nat (length l)) + CalcPercentBad l' m * inject_Z (Z.of_nat (length l')))%Q.
Proof.
  destruct l as [|a l]. { cbn [app length CalcPercentBad]. change (inject_Z (Z.of_nat 0)) with 0%Q. ring. }
  destruct l' as [|b l']. { rewrite app_nil_r. cbn [CalcPercentBad]. ring. }
  rewrite !percent_value by discriminate. rewrite count_app, inject_Z_plus. ring.
Qed.
Theorem percent_order l l' m : Permutation l l' -> (CalcPercentBad l m == CalcPercentBad l' m)%Q.
Proof.
  intro P. pose proof (count_perm (above m) l l' P) as C. pose proof (Permutation_length P) as L. destruct l as [|a l], l' as [|b l']; try discriminate; [ reflexivity |]. unfold CalcPercentBad. rewrite C, L. reflexivity.
Qed.
(** averages *)
Lemma fadd_fold f : forall (l : list Q) s, exists t, fold_left (fun s v => fadd s (f v)) (map Some l) (Some s) = t /\
  (forall g, (forall q, f (Some q) = Some (g q)) -> exists r, t = Some r /\ (r == s + qsum (map g l))%Q).
Proof.
  induction l as [|q l IH]; intro s; cbn [map fold_left].
  - exists (Some s). split; auto. intros g _. exists s. split; auto. cbn. ring.
  - eexists. split; [ reflexivity |]. intros g G. rewrite G. cbn [fadd]. destruct (IH (s + g q)%Q) as (t & E & H). destruct (H g G) as (r & -> & Er). exists r. split; auto. rewrite Er. change (qsum (map g (q :: l))) with (g q + qsum (map g l))%Q. symmetry. apply Qplus_assoc.
Qed.
Lemma fold_fadd_ext (f : flt -> flt) l s : (forall v, f v = v) -> fold_left (fun s v => fadd s (f v)) l s = fold_left fadd l s.
Proof. intro E. apply fold_left_ext. intros a b _. now rewrite E. Qed.
Theorem average_value (l : list Q) : l <> [] -> exists a, CalcAverage (map Some l) = Some a /\ is_mean a l.
Proof.
  destruct l as [|q l]; [ congruence |]. intros _. unfold CalcAverage. destruct (fadd_fold (fun v => v) (q :: l) 0) as (t & E & H). destruct (H (fun q => q) (fun _ => eq_refl)) as (r & Et & Er).
  cbn [map]. rewrite (fold_fadd_ext (fun v => v)) in E by auto. change (fold_left fadd (map Some (q :: l)) (Some 0%Q)) with (fold_left fadd (Some q :: map Some l) (Some 0%Q)) in E. rewrite E, Et.
  eexists. split; [ reflexivity |]. split; [ discriminate |]. cbn [length]. rewrite map_length. rewrite map_id, Qplus_0_l in Er. rewrite <- Er.
  pose proof (injZ_pos _ (len_pos q l)). cbn [length] in H0. field. lra.
Qed.
Theorem rms_value (l : list Q) : l <> [] -> exists a, CalcRMS2 (map Some l) = Some a /\ is_mean a (map (fun q => q * q)%Q l).
Proof.
  destruct l as [|q l]; [ congruence |]. intros _. unfold CalcRMS2. destruct (fadd_fold (fun v => match v with Some q => Some (q * q)%Q | None => None end) (q :: l) 0) as (t & E & H). destruct (H (fun q => q * q)%Q (fun _ => eq_refl)) as (r & Et & Er).
  cbn [map]. cbn [map] in E. rewrite E, Et.
  eexists. split; [ reflexivity |]. split; [ discriminate |]. cbn [length]. rewrite !map_length. rewrite Qplus_0_l in Er. cbn [map] in Er. rewrite <- Er.
  pose proof (injZ_pos _ (len_pos q l)). cbn [length] in H0. field. lra.
Qed.
Lemma square_sum (l : list Q) (n : Q) : forall s, (2 * s * qsum l - inject_Z (Z.of_nat (length l)) * (s * s) <= qsum (map (fun q => q * q) l))%Q.
Proof.
  intro s. induction l as [|q l IH]. { cbn. change (inject_Z 0) with 0%Q. lra. }
  change (qsum (q :: l)) with (q + qsum l)%Q. change (qsum (map (fun q => q * q)%Q (q :: l))) with (q * q + qsum (map (fun q => q * q) l))%Q. cbn [length]. rewrite Nat2Z.inj_succ. unfold Z.succ. rewrite inject_Z_plus. change (inject_Z 1) with 1%Q.
  assert (0 <= (q - s) * (q - s))%Q. { destruct (Qlt_le_dec (q - s) 0); nra. } nra.
Qed.
Theorem average_le_rms (l : list Q) a r : l <> [] -> is_mean a l -> is_mean r (map (fun q => q * q)%Q l) -> (a * a <= r)%Q.
Proof.
  intros N (_ & A) (_ & R). rewrite map_length in R. pose proof (square_sum l 0 a) as S. rewrite <- A, <- R in S.
  assert (P : (0 < inject_Z (Z.of_nat (length l)))%Q) by (apply injZ_pos; destruct l; [ congruence | apply len_pos ]).
  revert S P. generalize (inject_Z (Z.of_nat (length l))). intros n S P. nra.
Qed.
Lemma fold_none (f : flt -> flt) l : fold_left (fun s v => fadd s (f v)) l None = None.
Proof. induction l; auto. Qed.
Theorem average_nan l : In None l -> CalcAverage l = None /\ CalcRMS2 l = None.
Proof.
  intro I.
  assert (G : forall f, f None = None -> forall s, fold_left (fun s v => fadd s (f v)) l s = None).
  { intros f F. clear -I F. induction l as [|v l IH]; [ destruct I |]. intro s. cbn [fold_left]. destruct I as [->|I]; [| auto ]. rewrite F. replace (fadd s None) with (@None Q) by (destruct s; reflexivity). apply fold_none. }
  destruct l as [|v l]; [ destruct I |]. unfold CalcAverage, CalcRMS2. rewrite (G (fun v => match v with Some q => Some (q * q)%Q | None => None end) eq_refl).
  rewrite <- (fold_fadd_ext (fun v => v)) by auto. rewrite (G (fun v => v) eq_refl). auto.
Qed.

Lemma valid_iff t v : valid_gt t v = true <-> exists q, v = Some q /\
  ~ (q == match t with U8 => inject_Z 255 | S8 => inject_Z 127 | U16 => inject_Z 65535 | S16 => inject_Z 32767 | S32 => inject_Z 2147483647 | F32 => inject_Z (2 ^ 128 - 2 ^ 104) end)%Q /\
  match t with U8 | U16 => True | _ => (0 <= q)%Q end.
Proof.
  assert (M : max_of t = match t with U8 => inject_Z 255 | S8 => inject_Z 127 | U16 => inject_Z 65535 | S16 => inject_Z 32767 | S32 => inject_Z 2147483647 | F32 => inject_Z (2 ^ 128 - 2 ^ 104) end) by (destruct t; reflexivity).
  rewrite <- M. unfold valid_gt. destruct v as [q|].
  - rewrite andb_true_iff, negb_true_iff. assert (E : Qeq_bool q (max_of t) = false <-> ~ (q == max_of t)%Q).
    { split; [intros H X; apply Qeq_bool_iff in X; congruence|]. intros H. destruct (Qeq_bool q (max_of t)) eqn:B; [|reflexivity]. apply Qeq_bool_iff in B. contradiction. }
    rewrite E. split.
    + intros (N & P). exists q. repeat split; auto. destruct t; auto; apply Qle_bool_iff; exact P.
    + intros (q' & Q & N & P). inversion Q; subst q'. split; auto. destruct t; auto; apply Qle_bool_iff; exact P.
  - split; [discriminate|]. intros (q & H & _). discriminate H.
Qed.

Lemma wrap_wrap v : wrap (wrap v) = wrap v.
Proof. unfold wrap. now rewrite Z.mod_mod by lia. Qed.
Lemma add_map_merge t e p q : u64 (nDCs e) -> add_map t e (p ++ q) = merge_errors (add_map t e p) (add_map t (DE [] 0) q).
Proof.
  intros U. rewrite (add_map_ok t (p ++ q)), (add_map_ok t p), (add_map_ok t q); auto; [|unfold u64; cbn; lia]. unfold merge_errors. cbn [vErrors nDCs app].
  rewrite filter_app, map_app, app_assoc. f_equal. unfold count. rewrite filter_app, app_length, Nat2Z.inj_add. rewrite wrap_l, wrap_r. f_equal. lia.
Qed.
