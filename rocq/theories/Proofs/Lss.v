From Coq Require Import ZArith Reals List Bool Lia Lra Psatz.
From Verif Require Import Lib.Grid Model.Lss Spec.Lss.
Import ListNotations.
Open Scope Z_scope.

(* sums *)
Lemma zsum_fold {A} (f : A -> Z) l : forall s, fold_left (fun s a => s + f a) l s = s + fold_right Z.add 0 (map f l).
Proof. induction l as [|a l IH]; intros s; cbn; [ lia |]. rewrite IH. lia. Qed.
Lemma zsum_map {A} (f : A -> Z) l : zsum f l = fold_right Z.add 0 (map f l).
Proof. unfold zsum. now rewrite zsum_fold. Qed.
Lemma fold_add_app l m : fold_right Z.add 0 (l ++ m) = fold_right Z.add 0 l + fold_right Z.add 0 m.
Proof. induction l as [|a l IH]; cbn; [ lia |]. rewrite IH. lia. Qed.
Lemma fold_add_prod {A B} (f : A -> B -> Z) l m :
  fold_right Z.add 0 (map (fun q => f (fst q) (snd q)) (list_prod l m)) = fold_right Z.add 0 (map (fun a => fold_right Z.add 0 (map (f a) m)) l).
Proof. induction l as [|a l IH]; cbn; [ reflexivity |]. rewrite map_app, fold_add_app, IH, map_map. f_equal. Qed.
Lemma fold_add_nonneg l : (forall x, In x l -> 0 <= x) -> 0 <= fold_right Z.add 0 l.
Proof. induction l as [|a l IH]; cbn; intros H; [ lia |]. assert (0 <= a) by (apply H; auto). assert (0 <= fold_right Z.add 0 l) by (apply IH; auto). lia. Qed.
Lemma fold_add_zero l : (forall x, In x l -> 0 <= x) -> fold_right Z.add 0 l = 0 -> forall x, In x l -> x = 0.
Proof.
  induction l as [|a l IH]; cbn; intros H E x; [ tauto |]. assert (0 <= a) by (apply H; auto). assert (0 <= fold_right Z.add 0 l) by (apply fold_add_nonneg; auto).
  intros [-> | I]; [ lia |]. apply IH; auto. lia.
Qed.

(* the correlation map *)
Lemma half_win cf : 0 < patch cf -> patch cf mod 2 = 1 -> win cf / 2 = outer cf + patch cf / 2 /\ patch cf = 2 * (patch cf / 2) + 1 /\ 0 <= patch cf / 2.
Proof. intros P Q. unfold win. rewrite Z.add_comm, Z.div_add by lia. assert (E := Z.div_mod (patch cf) 2 ltac:(lia)). split; [ lia |]. split; [ lia |]. apply Z.div_pos; lia. Qed.
Lemma corr_cost cf im r c i : good cf -> 0 <= i -> corr_map cf im r c i = cost im (patch cf / 2) r c (i / (2 * outer cf + 1) - outer cf) (i mod (2 * outer cf + 1) - outer cf).
Proof.
  intros ((P & Q & _) & _) I. destruct (half_win cf P Q) as (H1 & H2 & H3). unfold corr_map, corr, win in *.
  replace (outer cf * 2 + patch cf - patch cf + 1) with (2 * outer cf + 1) by lia. rewrite H1.
  set (y := i / (2 * outer cf + 1)). set (x := i mod (2 * outer cf + 1)). set (h := patch cf / 2) in *. unfold sqdiff, cost. rewrite zsum_map.
  rewrite (fold_add_prod (fun a ch => (px im ch (r + fst a) (c + snd a) - px im ch (r + (y - outer cf) + fst a) (c + (x - outer cf) + snd a)) ^ 2)).
  replace (grid 0 (patch cf) 0 (patch cf)) with (map (fun z : Z * Z => (fst z + h, snd z + h)) (grid (- h) (2 * h + 1) (- h) (2 * h + 1))).
  2: { rewrite <- grid_shift. rewrite H2. f_equal; lia. }
  rewrite map_map. f_equal. apply map_ext. intros a. cbn [fst snd]. rewrite zsum_map. f_equal. apply map_ext. intros ch.
  rewrite Z.pow_2_r.
  replace (r - h + (fst a + h)) with (r + fst a) by lia. replace (c - h + (snd a + h)) with (c + snd a) by lia.
  replace (r - (outer cf + h) + y + (fst a + h)) with (r + (y - outer cf) + fst a) by lia.
  replace (c - (outer cf + h) + x + (snd a + h)) with (c + (x - outer cf) + snd a) by lia. reflexivity.
Qed.
Lemma cost_nonneg im h r c dy dx : 0 <= cost im h r c dy dx.
Proof. unfold cost. apply fold_add_nonneg. intros x I. apply in_map_iff in I as (q & <- & _). rewrite Z.pow_2_r. apply Z.square_nonneg. Qed.
Lemma cost_zero im h r c dy dx : 0 <= h -> (cost im h r c dy dx = 0 <->
  forall ch oy ox, 0 <= ch < chans im -> Z.abs oy <= h -> Z.abs ox <= h -> px im ch (r + dy + oy) (c + dx + ox) = px im ch (r + oy) (c + ox)).
Proof.
  intros H. split.
  - intros E ch oy ox C Y X. unfold cost in E.
    assert (Z0 : (px im ch (r + oy) (c + ox) - px im ch (r + dy + oy) (c + dx + ox)) ^ 2 = 0).
    { refine (fold_add_zero _ _ E _ _).
      - intros x J. apply in_map_iff in J as (q & <- & _). rewrite Z.pow_2_r. apply Z.square_nonneg.
      - apply in_map_iff. exists ((oy, ox), ch). split; [ reflexivity |]. apply in_prod; [ apply in_grid; cbn [fst snd]; lia | apply in_zrange; lia ]. }
    rewrite Z.pow_2_r in Z0. apply Z.mul_eq_0 in Z0. lia.
  - intros E. unfold cost. rewrite (map_ext_in _ (fun _ => 0)).
    + induction (list_prod _ _) as [|q l IH]; cbn; auto.
    + intros q J. destruct q as [[oy ox] ch]. apply in_prod_iff in J as (J1 & J2). apply in_grid in J1. apply in_zrange in J2. cbn [fst snd] in *.
      rewrite (E ch oy ox) by lia. rewrite Z.sub_diag. reflexivity.
Qed.
Lemma cost_ext im im' h r c dy dx : chans im' = chans im -> (exists s : Z, (s = 1 \/ s = -1) /\ exists k, forall ch y x, px im' ch y x = s * px im ch y x + k ch) ->
  cost im' h r c dy dx = cost im h r c dy dx.
Proof.
  intros C (s & S & k & E). unfold cost. rewrite C. f_equal. apply map_ext. intros q. rewrite !E. destruct S as [-> | ->]; ring.
Qed.

(* the smallest value of each bin *)
Definition lowers (P : Z -> Prop) (o : option Z) : Prop := match o with None => forall v, ~ P v | Some m => least P m end.
Lemma lowers_ext P Q o : (forall v, P v <-> Q v) -> lowers P o -> lowers Q o.
Proof. intros E. destruct o as [m|]; cbn; unfold least; [ intros (A & B); split; [ now apply E | intros v V; apply B; now apply E ] | intros A v V; apply (A v); now apply E ]. Qed.
Lemma temp_lowers cf cm b l : forall t P, lowers P (t b) ->
  lowers (fun v => P v \/ exists i, In i l /\ nth_error (lut cf) (Z.to_nat i) = Some (Some b) /\ v = cm i) (fold_left (tstep cf cm) l t b).
Proof.
  induction l as [|i l IH]; intros t P H; cbn [fold_left].
  - revert H. apply lowers_ext. intros v. split; [ auto |]. intros [A | (j & [] & _)]. exact A.
  - assert (G : lowers (fun v => P v \/ (nth_error (lut cf) (Z.to_nat i) = Some (Some b) /\ v = cm i)) (tstep cf cm t i b)).
    { unfold tstep. destruct (nth_error (lut cf) (Z.to_nat i)) as [[b'|]|] eqn:N.
      - destruct (b =? b') eqn:E.
        + apply Z.eqb_eq in E. subst b'. destruct (t b) as [o|]; cbn in *.
          * destruct H as (A & B). split.
            -- destruct (Z.min_spec o (cm i)) as [(_ & ->) | (_ & ->)]; auto.
            -- intros v [V | (_ & ->)]; [ specialize (B v V); lia | lia ].
          * split; [ auto |]. intros v [V | (_ & ->)]; [ exfalso; exact (H v V) | lia ].
        + apply Z.eqb_neq in E. revert H. apply lowers_ext. intros v. split; [ auto |]. intros [A | (A & _)]; [ exact A | exfalso; congruence ].
      - revert H. apply lowers_ext. intros v. split; [ auto |]. intros [A | (A & _)]; [ exact A | discriminate ].
      - revert H. apply lowers_ext. intros v. split; [ auto |]. intros [A | (A & _)]; [ exact A | discriminate ]. }
    specialize (IH _ _ G). revert IH. apply lowers_ext. intros v. split.
    + intros [[A | (A & B)] | (j & A & B)]; [ auto | right; exists i; cbn; auto | right; exists j; cbn; auto ].
    + intros [A | (j & [<- | A] & B)]; [ auto | auto | right; exists j; auto ].
Qed.
Lemma raster cf b i : good cf -> 0 <= i -> nth_error (lut cf) (Z.to_nat i) = Some (Some b) ->
  covers cf b (i / (2 * outer cf + 1) - outer cf) (i mod (2 * outer cf + 1) - outer cf).
Proof.
  intros ((P & _ & Q & _) & _ & L & _) I N. set (n := 2 * outer cf + 1) in *. assert (N0 : 0 < n) by (unfold n; lia).
  assert (B : (Z.to_nat i < length (lut cf))%nat) by (apply nth_error_Some; congruence). rewrite L in B.
  assert (B' : i < n * n) by lia. assert (D := Z.div_mod i n ltac:(lia)). assert (M := Z.mod_pos_bound i n N0).
  assert (Y : 0 <= i / n < n) by (split; [ apply Z.div_pos; lia | apply Z.div_lt_upper_bound; lia ]).
  unfold covers. fold n. split; [ unfold n in *; lia |]. split; [ unfold n in *; lia |].
  replace ((i / n - outer cf + outer cf) * n + (i mod n - outer cf + outer cf)) with i by lia. exact N.
Qed.
Lemma unraster cf dy dx : Z.abs dy <= outer cf -> Z.abs dx <= outer cf -> let i := (dy + outer cf) * (2 * outer cf + 1) + (dx + outer cf) in
  0 <= i /\ i / (2 * outer cf + 1) - outer cf = dy /\ i mod (2 * outer cf + 1) - outer cf = dx.
Proof.
  intros Y X i. assert (E1 : i / (2 * outer cf + 1) = dy + outer cf) by (symmetry; apply Z.div_unique with (dx + outer cf); [ lia | unfold i; ring ]).
  assert (E2 : i mod (2 * outer cf + 1) = dx + outer cf) by (symmetry; apply Z.mod_unique with (dy + outer cf); [ lia | unfold i; ring ]).
  split; [ unfold i; nia | lia ].
Qed.
Lemma temp_tells cf im r c b : good cf -> tells cf im r c b (desc_of cf im r c b).
Proof.
  intros G. unfold desc_of. assert (T := temp_lowers cf (corr_map cf im r c) b (zrange (first cf) (last cf - first cf + 1)) (fun _ => None) (fun _ => False)).
  specialize (T ltac:(cbn; intros v []) ). fold (temp_desc cf (corr_map cf im r c)) in T.
  assert (G' := G). destruct G' as (_ & Ns & _ & F & V).
  apply (lowers_ext _ (fun m => exists dy dx, covers cf b dy dx /\ m = cost im (patch cf / 2) r c dy dx)) in T.
  - unfold tells, bin_value. destruct (temp_desc cf (corr_map cf im r c) b) as [m|]; cbn in T.
    + left. exists m. split; [ exact T |]. f_equal. field. lra.
    + right. split. { intros dy dx A. apply (T (cost im (patch cf / 2) r c dy dx)). exists dy, dx. auto. } f_equal. field. lra.
  - intros v. split.
    + intros [[] | (i & I & N & ->)]. apply in_zrange in I. exists (i / (2 * outer cf + 1) - outer cf), (i mod (2 * outer cf + 1) - outer cf).
      split; [ apply raster; auto; lia | apply corr_cost; auto; lia ].
    + intros (dy & dx & A & ->). right. assert (A' := A). destruct A' as (Y & X & N). destruct (unraster cf dy dx Y X) as (I & E1 & E2).
      set (i := (dy + outer cf) * (2 * outer cf + 1) + (dx + outer cf)) in *. exists i. destruct (V _ _ N) as (_ & Z1). split; [ apply in_zrange; lia |]. split; [ exact N |].
      rewrite corr_cost by auto. now rewrite E1, E2.
Qed.

(* memory *)
Lemma writes {A} (step : memory -> A -> memory) (i : Z) (v : option R) l : forall m,
  (forall a, In a l -> (forall m, step m a i = v) \/ (forall m, step m a i = m i)) ->
  (m i = v \/ exists a, In a l /\ forall m, step m a i = v) -> fold_left step l m i = v.
Proof.
  induction l as [|a l IH]; intros m H S; cbn [fold_left].
  - destruct S as [S | (a & [] & _)]. exact S.
  - apply IH; [ intros a' I; apply H; now right |]. destruct S as [S | (a' & [<- | I] & E)].
    + left. destruct (H a ltac:(now left)) as [K | K]; rewrite K; auto.
    + left. apply E.
    + right. exists a'. auto.
Qed.
Lemma writes_none {A} (step : memory -> A -> memory) (i : Z) l m : (forall a m, In a l -> step m a i = m i) -> fold_left step l m i = m i.
Proof. intros H. apply writes; auto. Qed.
Lemma scaled n p b lo k : 0 <= b < n -> ((lo * n <=? p * n + b) && (p * n + b <? lo * n + k * n))%Z = (lo <=? p) && (p <? lo + k).
Proof.
  intros B. apply eq_true_iff_eq. rewrite !andb_true_iff, !Z.leb_le, !Z.ltb_lt. split; intros (X & Y); split; nia.
Qed.
Lemma scaled_one n p b lo : 0 <= b < n -> ((lo * n <=? p * n + b) && (p * n + b <? lo * n + n))%Z = (p =? lo).
Proof. intros B. replace (lo * n + n) with (lo * n + 1 * n) by lia. rewrite scaled by lia. apply eq_true_iff_eq. rewrite andb_true_iff, Z.leb_le, Z.ltb_lt, Z.eqb_eq. lia. Qed.
Lemma fill_at n m lo k v p b at_ cnt : at_ = lo * n -> cnt = k * n -> 0 <= b < n -> fill m at_ cnt v (p * n + b) = if (lo <=? p) && (p <? lo + k) then Some v else m (p * n + b).
Proof. intros -> -> B. unfold fill. now rewrite scaled. Qed.
Lemma store_at cf m lo d p b at_ : at_ = lo * bins cf -> 0 <= b < bins cf -> store cf m at_ d (p * bins cf + b) = if p =? lo then Some (d b) else m (p * bins cf + b).
Proof. intros -> B. unfold store. rewrite scaled_one by exact B. destruct (p =? lo) eqn:E; [| reflexivity ]. apply Z.eqb_eq in E. subst. do 2 f_equal. lia. Qed.
Lemma flat_eq w r c r' c' : 0 <= c < w -> 0 <= c' < w -> r * w + c = r' * w + c' -> r = r' /\ c = c'.
Proof. intros A B E. assert (r = r') by nia. subst. lia. Qed.

(* normalization works on each descriptor by itself *)
Lemma known_ext m m' a n : (forall k, 0 <= k < n -> m (a + k) = m' (a + k)) -> known m a n = known m' a n.
Proof. intros E. unfold known. apply eq_true_iff_eq. rewrite !forallb_forall. split; intros H k I; specialize (H k I); apply in_zrange in I; [ rewrite <- E by lia | rewrite E by lia ]; exact H. Qed.
Lemma rsum_ext {A} (f g : A -> R) l : (forall x, In x l -> f x = g x) -> rsum f l = rsum g l.
Proof. unfold rsum. induction l as [|a l IH]; cbn; intros H; [ reflexivity |]. f_equal; [ apply H; auto | apply IH; auto ]. Qed.
Lemma l2_ext m m' a n : (forall k, 0 <= k < n -> m (a + k) = m' (a + k)) -> l2 m a n = l2 m' a n.
Proof. intros E. unfold l2. f_equal. apply rsum_ext. intros k I. apply in_zrange in I. unfold value. rewrite E by lia. reflexivity. Qed.
Lemma norm_step_other cf m d d' b : 0 <= b < bins cf -> d' <> d -> norm_step cf m d (d' * bins cf + b) = m (d' * bins cf + b).
Proof. intros B N. unfold norm_step. rewrite scaled_one by exact B. apply Z.eqb_neq in N. now rewrite N. Qed.
Lemma norm_step_ext cf m m' d b : 0 <= b < bins cf -> (forall k, 0 <= k < bins cf -> m (d * bins cf + k) = m' (d * bins cf + k)) ->
  norm_step cf m d (d * bins cf + b) = norm_step cf m' d (d * bins cf + b).
Proof.
  intros B E. unfold norm_step. rewrite scaled_one by exact B. rewrite Z.eqb_refl.
  rewrite (known_ext m m') by exact E. rewrite (l2_ext m m') by exact E. unfold value at 1 2. rewrite E by lia. reflexivity.
Qed.
Lemma norm_fold_other cf d b l : 0 <= b < bins cf -> ~ In d l -> forall m, fold_left (norm_step cf) l m (d * bins cf + b) = m (d * bins cf + b).
Proof.
  intros B. induction l as [|x l IH]; intros N m; cbn [fold_left]; [ reflexivity |]. rewrite IH by (intros I; apply N; now right).
  apply norm_step_other; [ exact B |]. intros ->. apply N. now left.
Qed.
Lemma norm_all_at cf n m d b : 0 <= d < n -> 0 <= b < bins cf -> norm_all cf n m (d * bins cf + b) = norm_step cf m d (d * bins cf + b).
Proof.
  intros D B. unfold norm_all. assert (I : In d (zrange 0 n)) by (apply in_zrange; lia). assert (ND : NoDup (zrange 0 n)) by apply nodup_zseq.
  apply in_split in I as (l1 & l2 & E). rewrite E in *. rewrite fold_left_app. cbn [fold_left].
  apply NoDup_remove_2 in ND. rewrite norm_fold_other; [| exact B | intros I; apply ND; apply in_or_app; auto ].
  apply norm_step_ext; [ exact B |]. intros k K. apply norm_fold_other; [ exact K |]. intros I. apply ND. apply in_or_app. auto.
Qed.
Lemma rsum_map {A} (f : A -> R) l : rsum f l = fold_right Rplus 0%R (map f l).
Proof. unfold rsum. induction l as [|a l IH]; cbn; [ reflexivity |]. f_equal. exact IH. Qed.
Lemma l2_norm m a n d : (forall k, 0 <= k < n -> m (a + k) = Some (d k)) -> l2 m a n = norm n d.
Proof.
  intros E. unfold l2, norm. f_equal. rewrite rsum_map. f_equal. apply map_ext_in. intros k I. apply in_zrange in I. unfold value. rewrite E by lia. simpl. lra.
Qed.
(* what finish makes of a known descriptor, and of an unknown one *)
Lemma finish_known cf n m p d : 0 <= p < n -> (forall b, 0 <= b < bins cf -> m (p * bins cf + b) = Some (d b)) ->
  exists e, stored cf d e /\ forall b, 0 <= b < bins cf -> finish cf n m (p * bins cf + b) = Some (e b).
Proof.
  intros P E. unfold finish, stored. destruct (normalizing cf); [| exists d; auto ].
  assert (K : known m (p * bins cf) (bins cf) = true) by (apply forallb_forall; intros k I; apply in_zrange in I; now rewrite E by lia).
  assert (L := l2_norm m (p * bins cf) (bins cf) d E).
  assert (Q : forall b, 0 <= b < bins cf -> norm_all cf n m (p * bins cf + b) =
    if Rlt_dec (/ 1000000) (norm (bins cf) d) then Some (d b / norm (bins cf) d)%R else Some (sqrt (1 / IZR (bins cf)))).
  { intros b B. rewrite norm_all_at by assumption. unfold norm_step. rewrite scaled_one by exact B. rewrite Z.eqb_refl, K, L. unfold value. rewrite E by exact B. reflexivity. }
  replace (10 ^ 6)%R with 1000000%R by (simpl; lra).
  destruct (Rlt_dec (/ 1000000) (norm (bins cf) d)) as [T | T].
  - exists (fun b => d b / norm (bins cf) d)%R. split; [ left; split; [ exact T | auto ] | exact Q ].
  - exists (fun _ => sqrt (1 / IZR (bins cf))). split; [ right; split; [ lra | auto ] | exact Q ].
Qed.
Lemma finish_unknown cf n m p : 0 < bins cf -> 0 <= p < n -> (forall b, 0 <= b < bins cf -> m (p * bins cf + b) = None) ->
  forall b, 0 <= b < bins cf -> finish cf n m (p * bins cf + b) = None.
Proof.
  intros N P E b B. unfold finish. destruct (normalizing cf); [| auto ]. rewrite norm_all_at by assumption. unfold norm_step. rewrite scaled_one by exact B. rewrite Z.eqb_refl.
  replace (known m (p * bins cf) (bins cf)) with false; [ reflexivity |]. symmetry. apply not_true_is_false. intros K. unfold known in K. rewrite forallb_forall in K.
  specialize (K 0 ltac:(apply in_zrange; lia)). cbv beta in K. rewrite E in K by lia. discriminate.
Qed.

(* the dense variant *)
Lemma fits_large cf im : fits cf im = true <-> large cf im.
Proof.
  unfold fits, large, win. rewrite !andb_true_iff, orb_true_iff, !Z.eqb_eq, !Z.leb_le. split; [ intros ((A & B) & C) | intros (A & B & C) ]; repeat split; auto; lia.
Qed.
Definition inner_b (cf : config) (im : image) (r c : Z) : bool :=
  let h := win cf / 2 in (h <=? r) && (r <? rows im - h) && (h <=? c) && (c <? cols im - h).
Lemma inner_spec cf im r c : good cf -> inner_b cf im r c = true <-> inner cf im r c.
Proof.
  intros ((P & Q & _) & _). unfold inner_b, inner. destruct (half_win cf P Q) as (-> & _). cbv zeta. rewrite !andb_true_iff, !Z.leb_le, !Z.ltb_lt. tauto.
Qed.
Definition raw_dense (cf : config) (im : image) : memory :=
  let w := win cf / 2 in
  fold_left (dense_row cf im) (zrange w (rows im - w - w))
    (fill (fill fresh (addr cf im 0 0) (bins cf * w * cols im) 0) (addr cf im (rows im - w) 0) (bins cf * w * cols im) 0).
Lemma row_at cf im m r' r c b : good cf -> large cf im -> 0 <= r < rows im -> 0 <= c < cols im -> 0 <= b < bins cf -> win cf / 2 <= r' < rows im - win cf / 2 ->
  dense_row cf im m r' ((r * cols im + c) * bins cf + b) =
  if r =? r' then Some (if inner_b cf im r c then desc_of cf im r c b else 0%R) else m ((r * cols im + c) * bins cf + b).
Proof.
  intros ((P & Q & PO & N) & _) (_ & L1 & L2) R C B R'. destruct (half_win cf P Q) as (W & W2 & W3). set (w := win cf / 2) in *.
  assert (L : 2 * w < cols im) by lia. assert (L0 : 0 <= w) by lia.
  unfold dense_row. fold w. set (i := (r * cols im + c) * bins cf + b). cbv zeta.
  set (step := fun (m : memory) (c0 : Z) => store cf m (addr cf im r' c0) (desc_of cf im r' c0)).
  assert (S : forall m c0, step m c0 i = if r * cols im + c =? r' * cols im + c0 then Some (desc_of cf im r' c0 b) else m i).
  { intros m0 c0. unfold step, i. now rewrite (store_at cf m0 (r' * cols im + c0)). }
  destruct (r =? r') eqn:E.
  - apply Z.eqb_eq in E. subst r'. destruct (inner_b cf im r c) eqn:I.
    + unfold inner_b in I. fold w in I. cbv zeta in I. rewrite !andb_true_iff, !Z.leb_le, !Z.ltb_lt in I.
      apply writes.
      * intros c0 C0. destruct (Z.eq_dec c c0) as [<- | D].
        -- left. intros m0. now rewrite S, Z.eqb_refl.
        -- right. intros m0. rewrite S. destruct (r * cols im + c =? r * cols im + c0) eqn:F; [ apply Z.eqb_eq in F; lia | reflexivity ].
      * right. exists c. split; [ apply in_zrange; lia |]. intros m0. now rewrite S, Z.eqb_refl.
    + assert (Ic : c < w \/ cols im - w <= c).
      { unfold inner_b in I. fold w in I. cbv zeta in I. rewrite !andb_false_iff, !Z.leb_gt, !Z.ltb_ge in I. lia. }
      rewrite writes_none.
      * unfold i. rewrite (fill_at (bins cf) _ (r * cols im + (cols im - w)) w) by (unfold addr; nia || lia).
        rewrite (fill_at (bins cf) _ (r * cols im) w) by (unfold addr; nia || lia).
        destruct ((r * cols im + (cols im - w) <=? r * cols im + c) && (r * cols im + c <? r * cols im + (cols im - w) + w)) eqn:F1; [ reflexivity |].
        destruct ((r * cols im <=? r * cols im + c) && (r * cols im + c <? r * cols im + w)) eqn:F2; [ reflexivity |]. exfalso.
        rewrite andb_false_iff, Z.leb_gt, Z.ltb_ge in F1, F2. lia.
      * intros c0 m0 C0. apply in_zrange in C0. rewrite S. destruct (r * cols im + c =? r * cols im + c0) eqn:F; [ apply Z.eqb_eq in F; lia | reflexivity ].
  - apply Z.eqb_neq in E. rewrite writes_none.
    + unfold i. rewrite (fill_at (bins cf) _ (r' * cols im + (cols im - w)) w) by (unfold addr; nia || lia).
      rewrite (fill_at (bins cf) _ (r' * cols im) w) by (unfold addr; nia || lia).
      destruct ((r' * cols im + (cols im - w) <=? r * cols im + c) && (r * cols im + c <? r' * cols im + (cols im - w) + w)) eqn:F1.
      { exfalso. rewrite andb_true_iff, Z.leb_le, Z.ltb_lt in F1. apply E. nia. }
      destruct ((r' * cols im <=? r * cols im + c) && (r * cols im + c <? r' * cols im + w)) eqn:F2; [| reflexivity ].
      exfalso. rewrite andb_true_iff, Z.leb_le, Z.ltb_lt in F2. apply E. nia.
    + intros c0 m0 C0. apply in_zrange in C0. rewrite S. destruct (r * cols im + c =? r' * cols im + c0) eqn:F; [| reflexivity ].
      apply Z.eqb_eq in F. apply flat_eq in F; lia.
Qed.
Lemma raw_dense_at cf im r c b : good cf -> large cf im -> 0 <= r < rows im -> 0 <= c < cols im -> 0 <= b < bins cf ->
  raw_dense cf im ((r * cols im + c) * bins cf + b) = Some (if inner_b cf im r c then desc_of cf im r c b else 0%R).
Proof.
  intros G L R C B. assert (G' := G). destruct G' as ((P & Q & PO & N) & _). destruct (half_win cf P Q) as (W & W2 & W3).
  assert (L' := L). destruct L' as (_ & L1 & L2). unfold raw_dense. set (w := win cf / 2) in *. cbv zeta.
  apply writes.
  - intros r' R'. apply in_zrange in R'. destruct (Z.eq_dec r r') as [<- | D]; [ left | right ]; intros m0; rewrite row_at by (auto; fold w; lia).
    + now rewrite Z.eqb_refl.
    + apply Z.eqb_neq in D. now rewrite D.
  - destruct (Z_le_gt_dec w r) as [A | A]; [ destruct (Z_lt_ge_dec r (rows im - w)) as [A' | A'] |].
    + right. exists r. split; [ apply in_zrange; lia |]. intros m0. rewrite row_at by (auto; fold w; lia). now rewrite Z.eqb_refl.
    + left. assert (I : inner_b cf im r c = false) by (unfold inner_b; fold w; cbv zeta; destruct (Z.ltb_spec r (rows im - w)); [ lia |]; now rewrite andb_false_r). rewrite I.
      rewrite (fill_at (bins cf) _ ((rows im - w) * cols im) (w * cols im)) by (unfold addr; nia || lia).
      destruct (((rows im - w) * cols im <=? r * cols im + c) && (r * cols im + c <? (rows im - w) * cols im + w * cols im)) eqn:F; [ reflexivity |].
      exfalso. rewrite andb_false_iff, Z.leb_gt, Z.ltb_ge in F. nia.
    + left. assert (I : inner_b cf im r c = false) by (unfold inner_b; fold w; cbv zeta; destruct (Z.leb_spec w r); [ lia |]; reflexivity). rewrite I.
      rewrite (fill_at (bins cf) _ ((rows im - w) * cols im) (w * cols im)) by (unfold addr; nia || lia).
      destruct (((rows im - w) * cols im <=? r * cols im + c) && (r * cols im + c <? (rows im - w) * cols im + w * cols im)) eqn:F; [ reflexivity |].
      rewrite (fill_at (bins cf) _ 0 (w * cols im)) by (unfold addr; nia || lia).
      destruct ((0 <=? r * cols im + c) && (r * cols im + c <? 0 + w * cols im)) eqn:F'; [ reflexivity |].
      exfalso. rewrite andb_false_iff, Z.leb_gt, Z.ltb_ge in F'. nia.
Qed.
Lemma pixel_index rs cs r c : 0 <= r < rs -> 0 <= c < cs -> 0 <= r * cs + c < rs * cs.
Proof. intros R C. split; nia. Qed.
Lemma dense_ok cf im : good cf -> large cf im -> exists m, dense cf im = Some m /\ forall r c, 0 <= r < rows im -> 0 <= c < cols im ->
  exists e, at_pixel cf im m r c e /\ (inner cf im r c -> describes cf im r c e) /\ (~ inner cf im r c -> stored cf (fun _ => 0%R) e).
Proof.
  intros G L. exists (finish cf (rows im * cols im) (raw_dense cf im)). split.
  - unfold dense. apply fits_large in L. rewrite L. reflexivity.
  - intros r c R C. destruct (finish_known cf (rows im * cols im) (raw_dense cf im) (r * cols im + c) (fun b => if inner_b cf im r c then desc_of cf im r c b else 0%R)) as (e & S & E).
    + now apply pixel_index.
    + intros b B. now apply raw_dense_at.
    + exists e. split; [ exact E |]. split.
      * intros I. apply (inner_spec cf im r c G) in I. rewrite I in S. exists (desc_of cf im r c). split; [ exact S |]. intros b B. now apply temp_tells.
      * intros I. destruct (inner_b cf im r c) eqn:I'; [ apply (inner_spec cf im r c G) in I'; contradiction |]. exact S.
Qed.

(* keypoints *)
Definition raw_keyed (cf : config) (im : image) (keys : list (Z * Z)) : memory :=
  fold_left (fun m k => store cf m (addr cf im (fst k) (snd k)) (desc_of cf im (fst k) (snd k))) keys fresh.
Lemma raw_keyed_at cf im keys r c b : 0 <= c < cols im -> 0 <= b < bins cf -> (forall k, In k keys -> 0 <= snd k < cols im) ->
  (In (r, c) keys -> raw_keyed cf im keys ((r * cols im + c) * bins cf + b) = Some (desc_of cf im r c b)) /\
  (~ In (r, c) keys -> raw_keyed cf im keys ((r * cols im + c) * bins cf + b) = None).
Proof.
  intros C B H. unfold raw_keyed. split; intros I.
  - apply writes.
    + intros k K. destruct (Z.eq_dec (r * cols im + c) (fst k * cols im + snd k)) as [D | D].
      * left. intros m. rewrite (store_at cf m (fst k * cols im + snd k)) by (unfold addr; auto). rewrite D, Z.eqb_refl.
        apply flat_eq in D; [| exact C | now apply H ]. destruct D as (-> & ->). reflexivity.
      * right. intros m. rewrite (store_at cf m (fst k * cols im + snd k)) by (unfold addr; auto). apply Z.eqb_neq in D. now rewrite D.
    + right. exists (r, c). split; [ exact I |]. intros m. rewrite (store_at cf m (r * cols im + c)) by (unfold addr; auto). now rewrite Z.eqb_refl.
  - rewrite writes_none; [ reflexivity |]. intros k m K. rewrite (store_at cf m (fst k * cols im + snd k)) by (unfold addr; auto).
    destruct (r * cols im + c =? fst k * cols im + snd k) eqn:D; [| reflexivity ]. exfalso. apply Z.eqb_eq in D. apply flat_eq in D; [| exact C | now apply H ].
    apply I. destruct D as (-> & ->). now rewrite <- surjective_pairing.
Qed.
Lemma keyed_map_ok cf im keys : good cf -> large cf im -> keys <> [] -> (forall k, In k keys -> inner cf im (fst k) (snd k)) ->
  exists m, keyed_map cf im keys = Some (Some m) /\ forall r c, 0 <= r < rows im -> 0 <= c < cols im ->
  (In (r, c) keys -> exists e, at_pixel cf im m r c e /\ describes cf im r c e) /\
  (~ In (r, c) keys -> forall b, 0 <= b < bins cf -> m ((r * cols im + c) * bins cf + b) = None).
Proof.
  intros G L N K. exists (finish cf (rows im * cols im) (raw_keyed cf im keys)). split.
  - unfold keyed_map. apply fits_large in L. rewrite L. destruct keys; [ contradiction | reflexivity ].
  - intros r c R C. assert (H : forall k, In k keys -> 0 <= snd k < cols im).
    { intros k I. specialize (K k I). destruct G as ((P & Q & O & _) & _). destruct (half_win cf P Q) as (_ & _ & W). unfold inner in K. lia. }
    split; intros I.
    + destruct (finish_known cf (rows im * cols im) (raw_keyed cf im keys) (r * cols im + c) (desc_of cf im r c)) as (e & S & E).
      * now apply pixel_index.
      * intros b B. now apply raw_keyed_at.
      * exists e. split; [ exact E |]. exists (desc_of cf im r c). split; [ exact S |]. intros b B. now apply temp_tells.
    + apply finish_unknown; [ apply G | now apply pixel_index |]. intros b B. now apply raw_keyed_at.
Qed.
Definition rows_step (cf : config) (im : image) (s : Z * memory) (k : Z * Z) : Z * memory :=
  ((fst s + 1)%Z, store cf (snd s) (fst s * bins cf) (desc_of cf im (fst k) (snd k))).
Lemma rows_fold cf im keys : forall n m i b, 0 <= b < bins cf ->
  snd (fold_left (rows_step cf im) keys (n, m)) (i * bins cf + b) =
  if (n <=? i) && (i <? n + Z.of_nat (length keys)) then option_map (fun k => desc_of cf im (fst k) (snd k) b) (nth_error keys (Z.to_nat (i - n))) else m (i * bins cf + b).
Proof.
  induction keys as [|k keys IH]; intros n m i b B.
  - cbn. destruct ((n <=? i) && (i <? n + 0)) eqn:F; [| reflexivity ]. rewrite andb_true_iff, Z.leb_le, Z.ltb_lt in F. lia.
  - change (fold_left (rows_step cf im) (k :: keys) (n, m)) with (fold_left (rows_step cf im) keys (rows_step cf im (n, m) k)).
    unfold rows_step at 2. cbn [fst snd]. rewrite IH by exact B. rewrite (store_at cf m n) by auto.
    replace (n + 1 + Z.of_nat (length keys)) with (n + Z.of_nat (length (k :: keys))) by (cbn [length]; lia).
    destruct (Z.leb_spec (n + 1) i) as [A | A].
    + destruct (Z.leb_spec n i) as [A' | A']; [| lia ]. cbn [andb]. destruct (i <? n + Z.of_nat (length (k :: keys))).
      * replace (Z.to_nat (i - n)) with (S (Z.to_nat (i - (n + 1)))) by lia. reflexivity.
      * destruct (i =? n) eqn:E; [ apply Z.eqb_eq in E; lia | reflexivity ].
    + cbn [andb]. destruct (i =? n) eqn:E.
      * apply Z.eqb_eq in E. subst i. rewrite Z.leb_refl. destruct (Z.ltb_spec n (n + Z.of_nat (length (k :: keys)))); [| cbn [length] in *; lia ].
        cbn [andb]. rewrite Z.sub_diag. reflexivity.
      * apply Z.eqb_neq in E. destruct (Z.leb_spec n i); [ lia | reflexivity ].
Qed.
Lemma keyed_rows_ok cf im keys : good cf -> large cf im -> keys <> [] ->
  exists m, keyed_rows cf im keys = Some (Some m) /\ forall i k, nth_error keys (Z.to_nat i) = Some k -> 0 <= i -> exists e, at_row cf m i e /\ describes cf im (fst k) (snd k) e.
Proof.
  intros G L N. exists (finish cf (Z.of_nat (length keys)) (snd (fold_left (rows_step cf im) keys (0, fresh)))). split.
  - unfold keyed_rows. apply fits_large in L. rewrite L. destruct keys; [ contradiction | reflexivity ].
  - intros i k I I0. assert (B : (Z.to_nat i < length keys)%nat) by (apply nth_error_Some; congruence).
    destruct (finish_known cf (Z.of_nat (length keys)) (snd (fold_left (rows_step cf im) keys (0, fresh))) i (desc_of cf im (fst k) (snd k))) as (e & S & E).
    + lia.
    + intros b Bb. rewrite rows_fold by exact Bb. destruct (Z.leb_spec 0 i); [| lia ]. destruct (Z.ltb_spec i (0 + Z.of_nat (length keys))); [| lia ]. cbn [andb].
      rewrite Z.sub_0_r, I. reflexivity.
    + exists e. split; [ exact E |]. exists (desc_of cf im (fst k) (snd k)). split; [ exact S |]. intros b Bb. now apply temp_tells.
Qed.

(* what follows from the descriptors *)
Lemma fold_plus_ext {A} (f g : A -> R) l : (forall x, In x l -> f x = g x) -> fold_right Rplus 0%R (map f l) = fold_right Rplus 0%R (map g l).
Proof. intros H. f_equal. now apply map_ext_in. Qed.
Lemma norm_ext n d d' : (forall b, 0 <= b < n -> d b = d' b) -> norm n d = norm n d'.
Proof. intros H. unfold norm. f_equal. apply fold_plus_ext. intros k I. apply in_zrange in I. now rewrite H by lia. Qed.
Lemma stored_unique cf d d' e e' : (forall b, 0 <= b < bins cf -> d b = d' b) -> stored cf d e -> stored cf d' e' -> forall b, 0 <= b < bins cf -> e b = e' b.
Proof.
  intros D. unfold stored. rewrite (norm_ext (bins cf) d d' D). destruct (normalizing cf).
  - intros [(A & B) | (A & B)] [(A' & B') | (A' & B')] b I; try (exfalso; lra); rewrite B, B' by exact I; rewrite ?D by exact I; reflexivity.
  - intros A A' b I. rewrite A, A', D by exact I. reflexivity.
Qed.
Lemma tells_unique cf im r c b v v' : tells cf im r c b v -> tells cf im r c b v' -> v = v'.
Proof.
  intros [(m & (P & L) & ->) | (N & ->)] [(m' & (P' & L') & ->) | (N' & ->)].
  - assert (m = m') by (apply Z.le_antisymm; auto). now subst.
  - exfalso. destruct P as (dy & dx & C & _). exact (N' dy dx C).
  - exfalso. destruct P' as (dy & dx & C & _). exact (N dy dx C).
  - reflexivity.
Qed.
Lemma tells_ext cf im im' r c b v : (forall dy dx, cost im' (patch cf / 2) r c dy dx = cost im (patch cf / 2) r c dy dx) -> tells cf im r c b v -> tells cf im' r c b v.
Proof.
  intros E [(m & (P & L) & ->) | (N & ->)]; [ left; exists m; split; [| reflexivity ]; split | right; auto ].
  - destruct P as (dy & dx & C & ->). exists dy, dx. now rewrite E.
  - intros w (dy & dx & C & ->). apply L. exists dy, dx. now rewrite E.
Qed.
Lemma describes_unique cf im r c e e' : describes cf im r c e -> describes cf im r c e' -> forall b, 0 <= b < bins cf -> e b = e' b.
Proof.
  intros (d & S & D) (d' & S' & D'). apply (stored_unique cf d d'); auto. intros b B. eapply tells_unique; eauto.
Qed.
Lemma describes_ext cf im im' r c e : (forall dy dx, cost im' (patch cf / 2) r c dy dx = cost im (patch cf / 2) r c dy dx) -> describes cf im r c e -> describes cf im' r c e.
Proof. intros E (d & S & D). exists d. split; [ exact S |]. intros b B. apply (tells_ext cf im im'); auto. Qed.
Lemma pixel_unique cf im m r c e e' : at_pixel cf im m r c e -> at_pixel cf im m r c e' -> forall b, 0 <= b < bins cf -> e b = e' b.
Proof. intros A A' b B. specialize (A b B). specialize (A' b B). congruence. Qed.

(* values *)
Lemma float_max_pos : (0 < float_max)%R.
Proof. unfold float_max. apply Rmult_lt_0_compat; [ simpl; lra | apply pow_lt; lra ]. Qed.
Lemma tells_range cf im r c b v : (0 < noise cf)%R -> tells cf im r c b v -> (0 < v <= 1)%R.
Proof.
  intros N T. assert (H : exists x, (0 <= x)%R /\ v = exp (- (x / noise cf))).
  { destruct T as [(m & ((dy & dx & _ & E) & _) & ->) | (_ & ->)].
    - exists (IZR m). split; [| reflexivity ]. apply IZR_le. rewrite E. apply cost_nonneg.
    - exists float_max. split; [| reflexivity ]. apply Rlt_le, float_max_pos. }
  destruct H as (x & X & ->). split; [ apply exp_pos |]. rewrite <- exp_0. destruct X as [X | <-].
  - apply Rlt_le, exp_increasing. apply Ropp_lt_gt_0_contravar. apply Rdiv_lt_0_compat; assumption.
  - unfold Rdiv. rewrite Rmult_0_l, Ropp_0. lra.
Qed.
Lemma exp_one x : exp x = 1%R <-> x = 0%R.
Proof. split; [ intros E; apply exp_inv; now rewrite exp_0 | intros ->; apply exp_0 ]. Qed.
Lemma tells_one cf im r c b v : good cf -> tells cf im r c b v ->
  (v = 1%R <-> exists dy dx, covers cf b dy dx /\ forall ch oy ox, 0 <= ch < chans im -> Z.abs oy <= patch cf / 2 -> Z.abs ox <= patch cf / 2 ->
                 px im ch (r + dy + oy) (c + dx + ox) = px im ch (r + oy) (c + ox)).
Proof.
  intros G T. destruct G as ((P & Q & _) & N & _). destruct (half_win cf P Q) as (_ & _ & W).
  assert (F : forall x : R, (x / noise cf)%R = 0%R <-> x = 0%R).
  { intros x. unfold Rdiv. split; [ intros E; apply Rmult_integral in E as [E | E]; [ exact E | exfalso; apply (Rinv_neq_0_compat (noise cf)); lra ] | intros ->; ring ]. }
  destruct T as [(m & ((dy & dx & C & E) & L) & ->) | (Nc & ->)]; rewrite exp_one.
  - split.
    + intros Z0. exists dy, dx. split; [ exact C |]. apply cost_zero; [ exact W |]. rewrite <- E. apply eq_IZR. apply F. lra.
    + intros (dy' & dx' & C' & E'). apply (cost_zero im (patch cf / 2) r c dy' dx' W) in E'.
      assert (M : m = 0). { apply Z.le_antisymm; [ rewrite <- E'; apply L; exists dy', dx'; auto | rewrite E; apply cost_nonneg ]. }
      rewrite M. unfold Rdiv. rewrite Rmult_0_l. apply Ropp_0.
  - split; [ intros Z0; exfalso | intros (dy & dx & C & _); exfalso; exact (Nc dy dx C) ].
    assert (Z1 : (float_max / noise cf)%R = 0%R) by lra. apply (proj1 (F _)) in Z1. assert (H := float_max_pos). rewrite Z1 in H. exact (Rlt_irrefl _ H).
Qed.

(* normalized descriptors *)
Open Scope R_scope.
Lemma fold_plus_scale {A} (k : R) (f : A -> R) l : fold_right Rplus 0 (map (fun x => k * f x) l) = k * fold_right Rplus 0 (map f l).
Proof. induction l as [|a l IH]; cbn; [ ring |]. rewrite IH. ring. Qed.
Lemma fold_plus_nonneg {A} (f : A -> R) l : (forall x, In x l -> 0 <= f x) -> 0 <= fold_right Rplus 0 (map f l).
Proof. induction l as [|a l IH]; cbn; intros H; [ lra |]. assert (0 <= f a) by (apply H; auto). assert (0 <= fold_right Rplus 0 (map f l)) by (apply IH; auto). lra. Qed.
Lemma fold_plus_le {A} (f g : A -> R) l : (forall x, In x l -> f x <= g x) -> fold_right Rplus 0 (map f l) <= fold_right Rplus 0 (map g l).
Proof. induction l as [|a l IH]; cbn; intros H; [ lra |]. assert (f a <= g a) by (apply H; auto). assert (fold_right Rplus 0 (map f l) <= fold_right Rplus 0 (map g l)) by (apply IH; auto). lra. Qed.
Lemma fold_plus_add {A} (f g : A -> R) l : fold_right Rplus 0 (map (fun x => f x + g x) l) = fold_right Rplus 0 (map f l) + fold_right Rplus 0 (map g l).
Proof. induction l as [|a l IH]; cbn; [ ring |]. rewrite IH. ring. Qed.
Lemma fold_plus_const {A} (k : R) (l : list A) : fold_right Rplus 0 (map (fun _ => k) l) = INR (length l) * k.
Proof. induction l as [|a l IH]; [ cbn; ring |]. cbn [map fold_right length]. rewrite IH, S_INR. ring. Qed.
Lemma norm_nonneg n d : 0 <= norm n d. Proof. apply sqrt_pos. Qed.
Lemma norm_sq n d : norm n d * norm n d = fold_right Rplus 0 (map (fun k => d k ^ 2) (zrange 0 n)).
Proof. unfold norm. apply sqrt_sqrt. apply fold_plus_nonneg. intros x _. apply pow2_ge_0. Qed.
Lemma range_length n : (0 <= n)%Z -> INR (length (zrange 0 n)) = IZR n.
Proof. intros H. unfold zrange. rewrite zseq_length, INR_IZR_INZ, Z2Nat.id by exact H. reflexivity. Qed.
Lemma norm_const n k : (0 <= n)%Z -> 0 <= k -> norm n (fun _ => k) = sqrt (IZR n) * k.
Proof.
  intros H K. unfold norm. rewrite fold_plus_const, range_length by exact H. rewrite sqrt_mult; [| now apply IZR_le | apply pow2_ge_0 ]. f_equal. now apply sqrt_pow2.
Qed.
Lemma norm_uniform n : (0 < n)%Z -> norm n (fun _ => sqrt (1 / IZR n)) = 1.
Proof.
  intros H. assert (0 < IZR n) by now apply IZR_lt. rewrite norm_const by (lia || apply sqrt_pos). rewrite <- sqrt_mult; [| lra | apply Rlt_le, Rdiv_lt_0_compat; lra ].
  replace (IZR n * (1 / IZR n)) with 1 by (field; lra). apply sqrt_1.
Qed.
Lemma stored_unit cf d e : normalizing cf = true -> (0 < bins cf)%Z -> stored cf d e -> norm (bins cf) e = 1.
Proof.
  intros N B. unfold stored. rewrite N. intros [(A & E) | (A & E)]; rewrite (norm_ext _ _ _ E).
  - set (s := norm (bins cf) d) in *. assert (P : 0 < s) by (apply Rlt_trans with (2 := A); apply Rinv_0_lt_compat, pow_lt; lra).
    unfold norm. rewrite (fold_plus_ext _ (fun k => / (s * s) * d k ^ 2)) by (intros k _; field; lra). rewrite fold_plus_scale, <- norm_sq. fold s.
    replace (/ (s * s) * (s * s)) with 1 by (field; lra). apply sqrt_1.
  - now apply norm_uniform.
Qed.
Lemma stored_nonneg cf d e : (forall b, (0 <= b < bins cf)%Z -> 0 <= d b) -> stored cf d e -> forall b, (0 <= b < bins cf)%Z -> 0 <= e b.
Proof.
  intros D. unfold stored. destruct (normalizing cf).
  - intros [(A & E) | (A & E)] b B; rewrite E by exact B; [| apply sqrt_pos ]. apply Rmult_le_pos; [ now apply D |]. apply Rlt_le, Rinv_0_lt_compat.
    apply Rlt_trans with (2 := A). apply Rinv_0_lt_compat, pow_lt. lra.
  - intros E b B. rewrite E by exact B. now apply D.
Qed.
Lemma unit_distance n d e : norm n d = 1 -> norm n e = 1 -> (forall b, (0 <= b < n)%Z -> 0 <= d b /\ 0 <= e b) -> distance n d e <= sqrt 2.
Proof.
  intros D E P. unfold distance. apply sqrt_le_1_alt. rewrite rsum_map.
  apply Rle_trans with (fold_right Rplus 0 (map (fun k => d k ^ 2 + e k ^ 2) (zrange 0 n))).
  - apply fold_plus_le. intros k I. apply in_zrange in I. destruct (P k ltac:(lia)) as (P1 & P2). assert (0 <= d k * e k) by (apply Rmult_le_pos; assumption). nra.
  - rewrite fold_plus_add, <- !norm_sq, D, E. lra.
Qed.
Lemma stored_zero cf e : normalizing cf = true -> stored cf (fun _ => 0) e -> (0 < bins cf)%Z -> forall b, (0 <= b < bins cf)%Z -> e b = sqrt (1 / IZR (bins cf)).
Proof.
  intros N H B. unfold stored in H. rewrite N in H. destruct H as [(A & _) | (_ & E)]; [ exfalso | exact E ].
  rewrite norm_const in A by (lia || lra). rewrite Rmult_0_r in A. assert (0 < / 10 ^ 6) by (apply Rinv_0_lt_compat, pow_lt; lra). lra.
Qed.
Lemma stored_ones cf d e : normalizing cf = true -> (0 < bins cf)%Z -> (forall b, (0 <= b < bins cf)%Z -> d b = 1) -> stored cf d e ->
  forall b, (0 <= b < bins cf)%Z -> e b = sqrt (1 / IZR (bins cf)).
Proof.
  intros N B D H b I. unfold stored in H. rewrite N in H. destruct H as [(_ & E) | (_ & E)]; rewrite E by exact I; [| reflexivity ].
  rewrite (norm_ext _ d (fun _ => 1) D). rewrite norm_const by (lia || lra). rewrite D by exact I. assert (0 < IZR (bins cf)) by now apply IZR_lt.
  rewrite Rmult_1_r, sqrt_div_alt by exact H. rewrite sqrt_1. reflexivity.
Qed.
Lemma stored_faint cf d e s : normalizing cf = true -> (0 < bins cf)%Z -> (forall b, (0 <= b < bins cf)%Z -> 0 <= d b <= s) -> sqrt (IZR (bins cf)) * s <= / 10 ^ 6 -> stored cf d e ->
  forall b, (0 <= b < bins cf)%Z -> e b = sqrt (1 / IZR (bins cf)).
Proof.
  intros N B D S H. unfold stored in H. rewrite N in H. destruct H as [(A & _) | (_ & E)]; [ exfalso | exact E ].
  assert (0 <= s) by (destruct (D 0%Z ltac:(lia)); lra).
  assert (norm (bins cf) d <= norm (bins cf) (fun _ => s)).
  { unfold norm. apply sqrt_le_1_alt. apply fold_plus_le. intros k I. apply in_zrange in I. apply pow_incr. apply D. lia. }
  rewrite norm_const in H0 by (lia || lra). lra.
Qed.
Open Scope Z_scope.
Lemma dense_rejects cf im : dense cf im <> None <-> large cf im.
Proof. rewrite <- fits_large. unfold dense. destruct (fits cf im); cbn [negb]; split; congruence. Qed.
(* the descriptor of a pixel is the same in the three outputs *)
Lemma same_everywhere cf im keys md mk mr r c i : good cf -> large cf im -> (forall k, In k keys -> inner cf im (fst k) (snd k)) ->
  dense cf im = Some md -> keyed_map cf im keys = Some (Some mk) -> keyed_rows cf im keys = Some (Some mr) -> 0 <= i -> nth_error keys (Z.to_nat i) = Some (r, c) ->
  forall b, 0 <= b < bins cf -> exists v, md ((r * cols im + c) * bins cf + b) = Some v /\ mk ((r * cols im + c) * bins cf + b) = Some v /\ mr (i * bins cf + b) = Some v.
Proof.
  intros G L K D M Rr I0 I b B. assert (In_ : In (r, c) keys) by (eapply nth_error_In; eauto). assert (Nn : keys <> []) by (intros ->; destruct In_).
  assert (Inn := K _ In_). cbn [fst snd] in Inn.
  assert (RC : 0 <= r < rows im /\ 0 <= c < cols im). { destruct G as ((P & Q & O' & _) & _). destruct (half_win cf P Q) as (_ & _ & W). unfold inner in Inn. lia. }
  destruct RC as (R0 & C0).
  destruct (dense_ok cf im G L) as (md' & D' & Dp). rewrite D in D'. injection D' as <-.
  destruct (keyed_map_ok cf im keys G L Nn K) as (mk' & M' & Mp). rewrite M in M'. injection M' as <-.
  destruct (keyed_rows_ok cf im keys G L Nn) as (mr' & R' & Rp). rewrite Rr in R'. injection R' as <-.
  destruct (Dp r c R0 C0) as (e1 & A1 & S1 & _). destruct (Mp r c R0 C0) as (S2 & _). destruct (S2 In_) as (e2 & A2 & T2). destruct (Rp i _ I I0) as (e3 & A3 & T3).
  exists (e1 b). split; [ now apply A1 |]. split.
  - rewrite (A2 b B). f_equal. symmetry. eapply describes_unique; eauto.
  - rewrite (A3 b B). f_equal. symmetry. eapply describes_unique; eauto.
Qed.
(* adding a constant to each channel, or the negative image *)
Lemma dense_shift cf im im' s k m m' : good cf -> large cf im -> chans im' = chans im -> rows im' = rows im -> cols im' = cols im -> (s = 1 \/ s = -1) ->
  (forall ch y x, px im' ch y x = s * px im ch y x + k ch) -> dense cf im = Some m -> dense cf im' = Some m' ->
  forall r c b, 0 <= r < rows im -> 0 <= c < cols im -> 0 <= b < bins cf -> m' ((r * cols im + c) * bins cf + b) = m ((r * cols im + c) * bins cf + b).
Proof.
  intros G L E1 E2 E3 S E D D' r c b R C B.
  assert (L' : large cf im') by (unfold large in *; rewrite E1, E2, E3; exact L).
  destruct (dense_ok cf im G L) as (m1 & D1 & P1). rewrite D in D1. injection D1 as <-.
  destruct (dense_ok cf im' G L') as (m2 & D2 & P2). rewrite D' in D2. injection D2 as <-.
  destruct (P1 r c R C) as (e & A & I & O'). rewrite E2, E3 in P2. destruct (P2 r c R C) as (e' & A' & I' & O'').
  unfold at_pixel in A'. rewrite E3 in A'. rewrite (A b B), (A' b B). f_equal.
  assert (Ie : inner cf im' r c <-> inner cf im r c) by (unfold inner; rewrite E2, E3; tauto).
  destruct (inner_b cf im r c) eqn:Ib.
  - apply (inner_spec cf im r c G) in Ib. apply (describes_unique cf im' r c e' e); [ apply I', Ie, Ib | | exact B ].
    apply (describes_ext cf im im'); [| now apply I ]. intros dy dx. apply cost_ext; [ exact E1 |]. exists s. split; [ exact S |]. exists k. exact E.
  - assert (Nb : ~ inner cf im r c) by (intros X; apply (inner_spec cf im r c G) in X; congruence).
    apply (stored_unique cf (fun _ => 0%R) (fun _ => 0%R)); [ reflexivity | apply O''; rewrite Ie; exact Nb | now apply O' | exact B ].
Qed.
(* an image without any contrast: every descriptor of the map is the one of the border *)
Lemma flat_map cf im m v : good cf -> large cf im -> normalizing cf = true -> (forall b, 0 <= b < bins cf -> exists dy dx, covers cf b dy dx) ->
  (forall ch y x, px im ch y x = v ch) -> dense cf im = Some m ->
  forall r c b, 0 <= r < rows im -> 0 <= c < cols im -> 0 <= b < bins cf -> m ((r * cols im + c) * bins cf + b) = Some (sqrt (1 / IZR (bins cf))).
Proof.
  intros G L N Cv F D r c b R C B. destruct (dense_ok cf im G L) as (m1 & D1 & P1). rewrite D in D1. injection D1 as <-.
  destruct (P1 r c R C) as (e & A & I & O'). rewrite (A b B). f_equal. assert (Bn : 0 < bins cf) by lia.
  destruct (inner_b cf im r c) eqn:Ib.
  - apply (inner_spec cf im r c G) in Ib. destruct (I Ib) as (d & S & T). apply (stored_ones cf d e N Bn); [| exact S | exact B ].
    intros k K. apply (tells_one cf im r c k (d k) G (T k K)). destruct (Cv k K) as (dy & dx & X). exists dy, dx. split; [ exact X |]. intros. now rewrite !F.
  - assert (Nb : ~ inner cf im r c) by (intros X; apply (inner_spec cf im r c G) in X; congruence). apply (stored_zero cf e N); auto.
Qed.
(* a lookup map without entries: the image does not matter *)
Lemma blind cf im im' r c r' c' e e' : (forall i x, nth_error (lut cf) i = Some x -> x = None) -> describes cf im r c e -> describes cf im' r' c' e' ->
  forall b, 0 <= b < bins cf -> e b = e' b.
Proof.
  intros N (d & S & D) (d' & S' & D'). apply (stored_unique cf d d'); auto. intros b B.
  assert (Nc : forall dy dx, ~ covers cf b dy dx) by (intros dy dx (_ & _ & X); apply N in X; discriminate).
  destruct (D b B) as [(m & ((dy & dx & X & _) & _) & _) | (_ & ->)]; [ exfalso; eapply Nc; eauto |].
  destruct (D' b B) as [(m & ((dy & dx & X & _) & _) & _) | (_ & ->)]; [ exfalso; eapply Nc; eauto |]. reflexivity.
Qed.

(* a spot in the dark, and eight bins for the eight neighbours *)
Definition eight (nz : R) (nrm : bool) : config :=
  {| patch := 1; outer := 1; bins := 8; lut := [Some 0; Some 1; Some 2; Some 3; None; Some 4; Some 5; Some 6; Some 7]; first := 0; last := 8; noise := nz; normalizing := nrm |}.
Definition spot : image := {| chans := 1; rows := 3; cols := 3; px := fun _ y x => if (y =? 1) && (x =? 1) then 255 else 0 |}.
Definition dark : image := {| chans := 1; rows := 3; cols := 3; px := fun _ _ _ => 0 |}.
Lemma eight_good nz nrm : (0 < nz)%R -> good (eight nz nrm).
Proof.
  intros H. unfold good. cbn [patch outer bins noise lut first last eight]. split; [ repeat split; lia |]. split; [ exact H |]. split; [ reflexivity |]. split; [ lia |].
  intros i b N. assert (i < length (lut (eight nz nrm)))%nat by (apply nth_error_Some; cbn [lut eight]; congruence). cbn [length lut eight] in *.
  do 9 (destruct i as [|i]; [ cbn in N; (discriminate || (injection N as <-; lia)) |]). lia.
Qed.
Lemma eight_covered nz nrm b : 0 <= b < 8 -> exists dy dx, covers (eight nz nrm) b dy dx.
Proof.
  intros B. assert (E : b = 0 \/ b = 1 \/ b = 2 \/ b = 3 \/ b = 4 \/ b = 5 \/ b = 6 \/ b = 7) by lia.
  destruct E as [-> | [-> | [-> | [-> | [-> | [-> | [-> | ->]]]]]]];
    [ exists (-1), (-1) | exists (-1), 0 | exists (-1), 1 | exists 0, (-1) | exists 0, 1 | exists 1, (-1) | exists 1, 0 | exists 1, 1 ];
    (split; [ cbn; lia |]; split; [ cbn; lia |]; reflexivity).
Qed.
Lemma spot_cost nz nrm b dy dx : covers (eight nz nrm) b dy dx -> cost spot 0 1 1 dy dx = 65025.
Proof.
  intros (Y & X & N). cbn [outer eight] in Y, X.
  assert (EY : dy = -1 \/ dy = 0 \/ dy = 1) by lia. assert (EX : dx = -1 \/ dx = 0 \/ dx = 1) by lia.
  destruct EY as [-> | [-> | ->]]; destruct EX as [-> | [-> | ->]]; try reflexivity. cbn in N. discriminate.
Qed.
Lemma spot_tells nz nrm b v : 0 <= b < 8 -> tells (eight nz nrm) spot 1 1 b v -> v = exp (- (65025 / nz)).
Proof.
  intros B [(m & ((dy & dx & C & ->) & _) & ->) | (N & _)].
  - change (patch (eight nz nrm) / 2) with 0. rewrite (spot_cost nz nrm b dy dx C). reflexivity.
  - exfalso. destruct (eight_covered nz nrm b B) as (dy & dx & C). exact (N dy dx C).
Qed.
Lemma eight_large im nz nrm : chans im = 1 -> rows im = 3 -> cols im = 3 -> large (eight nz nrm) im.
Proof. intros A B C. unfold large. cbn. lia. Qed.
Lemma eight_described im nz nrm : (0 < nz)%R -> chans im = 1 -> rows im = 3 -> cols im = 3 -> exists e, describes (eight nz nrm) im 1 1 e.
Proof.
  intros H A B C. destruct (dense_ok (eight nz nrm) im (eight_good nz nrm H) (eight_large im nz nrm A B C)) as (m & _ & P).
  destruct (P 1 1 ltac:(lia) ltac:(lia)) as (e & _ & I & _). exists e. apply I. unfold inner. cbn. lia.
Qed.
Lemma faint_exp : (exp (- (65025 / 1)) <= / 10 ^ 8)%R.
Proof.
  rewrite exp_Ropp. apply Rinv_le_contravar; [ apply pow_lt; lra |].
  replace (65025 / 1)%R with (32512.5 + 32512.5)%R by lra. rewrite exp_plus. assert (H := exp_ineq1 32512.5 ltac:(lra)).
  apply Rle_trans with (32513 * 32513)%R; [ simpl; lra |]. apply Rmult_le_compat; lra.
Qed.
Lemma faint_refuted : exists cf im flat r c e e', good cf /\ normalizing cf = true /\ large cf im /\ large cf flat /\ inner cf im r c /\ inner cf flat r c /\
  (forall ch y x y' x', px flat ch y x = px flat ch y' x') /\
  (forall b dy dx, covers cf b dy dx -> exists ch oy ox, 0 <= ch < chans im /\ Z.abs oy <= patch cf / 2 /\ Z.abs ox <= patch cf / 2 /\ 255 <= Z.abs (px im ch (r + dy + oy) (c + dx + ox) - px im ch (r + oy) (c + ox))) /\
  describes cf im r c e /\ describes cf flat r c e' /\ forall b, 0 <= b < bins cf -> e b = e' b.
Proof.
  set (cf := eight 1 true). assert (P1 : (0 < 1)%R) by lra. assert (Gd := eight_good 1 true P1).
  destruct (eight_described spot 1 true P1 eq_refl eq_refl eq_refl) as (e & He). destruct (eight_described dark 1 true P1 eq_refl eq_refl eq_refl) as (e' & He').
  exists cf, spot, dark, 1, 1, e, e'. split; [ exact Gd |]. split; [ reflexivity |].
  split; [ now apply eight_large |]. split; [ now apply eight_large |]. split; [ unfold inner; cbn; lia |]. split; [ unfold inner; cbn; lia |]. split; [ reflexivity |].
  split.
  { intros b dy dx (Y & X & N). exists 0, 0, 0. cbn [outer eight cf chans spot patch px] in *. unfold cf in *. cbn [outer eight chans spot patch px] in *.
    assert (EY : dy = -1 \/ dy = 0 \/ dy = 1) by lia. assert (EX : dx = -1 \/ dx = 0 \/ dx = 1) by lia.
    destruct EY as [-> | [-> | ->]]; destruct EX as [-> | [-> | ->]]; try (cbn; lia). cbn in N. discriminate. }
  split; [ exact He |]. split; [ exact He' |]. intros b B.
  transitivity (sqrt (1 / IZR (bins cf))).
  - destruct He as (d & S & T). apply (stored_faint cf d e (/ 10 ^ 8) eq_refl eq_refl); [| | exact S | exact B ].
    + intros k K. rewrite (spot_tells 1 true k (d k) K (T k K)). split; [ apply Rlt_le, exp_pos | apply faint_exp ].
    + change (bins cf) with 8. assert (Q : (sqrt 8 <= 3)%R) by (rewrite <- (sqrt_square 3) by lra; apply sqrt_le_1_alt; lra).
      apply Rle_trans with (3 * / 10 ^ 8)%R; [ apply Rmult_le_compat_r; [ apply Rlt_le, Rinv_0_lt_compat, pow_lt; lra | exact Q ] | simpl; lra ].
  - symmetry. destruct He' as (d & S & T). apply (stored_ones cf d e' eq_refl eq_refl); [| exact S | exact B ].
    intros k K. apply (tells_one cf dark 1 1 k (d k) Gd (T k K)). destruct (eight_covered 1 true k K) as (dy & dx & X). exists dy, dx. split; [ exact X |]. reflexivity.
Qed.
Lemma dynamic_refuted : says_dynamic = true /\ exists cf cf' im r c e e', good cf /\ good cf' /\ large cf im /\ inner cf im r c /\
  (patch cf', outer cf', bins cf', lut cf', first cf', last cf', normalizing cf') = (patch cf, outer cf, bins cf, lut cf, first cf, last cf, normalizing cf) /\
  describes cf im r c e /\ describes cf' im r c e' /\ e 0 <> e' 0.
Proof.
  split; [ reflexivity |].
  destruct (eight_described spot 1 false ltac:(lra) eq_refl eq_refl eq_refl) as (e & He). destruct (eight_described spot 2 false ltac:(lra) eq_refl eq_refl eq_refl) as (e' & He').
  exists (eight 1 false), (eight 2 false), spot, 1, 1, e, e'. split; [ apply eight_good; lra |]. split; [ apply eight_good; lra |]. split; [ now apply eight_large |].
  split; [ unfold inner; cbn; lia |]. split; [ reflexivity |]. split; [ exact He |]. split; [ exact He' |].
  destruct He as (d & S & T). destruct He' as (d' & S' & T'). cbn [stored normalizing eight] in S, S'. unfold stored in S, S'. cbn [normalizing eight bins] in S, S'.
  rewrite (S 0), (S' 0) by lia. rewrite (spot_tells 1 false 0 (d 0) ltac:(lia) (T 0 ltac:(cbn; lia))), (spot_tells 2 false 0 (d' 0) ltac:(lia) (T' 0 ltac:(cbn; lia))).
  intros E. apply exp_inv in E. lra.
Qed.
From Verif Require Import Model.LogPolar Spec.LogPolar.
Lemma masks_good cf nR nA : accepted cf = true -> (0 < noise cf)%R -> bins cf = nR * nA -> valid_mask (corr cf) nR nA (Mask (lut cf) (first cf) (last cf)) -> good cf.
Proof.
  unfold accepted. rewrite !andb_true_iff, !Z.ltb_lt, Z.eqb_eq, Z.leb_le. intros ((((P & Q) & O') & L) & B) N E (es & f & l & M & Len & V & F & _). injection M as <- <- <-.
  unfold corr, win in *. replace (outer cf * 2 + patch cf - patch cf + 1) with (2 * outer cf + 1) in * by lia.
  split; [ auto |]. split; [ exact N |]. split; [ exact Len |]. split; [ lia |]. rewrite E. exact V.
Qed.
