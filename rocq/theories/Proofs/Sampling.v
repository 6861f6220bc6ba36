From Coq Require Import ZArith List Lia Bool.
From Verif Require Import Model.Sampling Spec.Sampling.
Import ListNotations.
Open Scope Z_scope.

Lemma clamp1_range v b n : 0 <= b -> 2 * b < n -> b <= clamp1 v b n <= n - b - 1.
Proof. intros. unfold clamp1. destruct (Z.ltb_spec v b), (Z.leb_spec (n - b) v); lia. Qed.
Lemma clamp1_id v b n : b <= v <= n - b - 1 -> clamp1 v b n = v.
Proof. intros. unfold clamp1. destruct (Z.ltb_spec v b), (Z.leb_spec (n - b) v); lia. Qed.
Lemma clamp1_nearest v b n w : 0 <= b -> 2 * b < n -> b <= w <= n - b - 1 -> Z.abs (clamp1 v b n - v) <= Z.abs (w - v).
Proof. intros. unfold clamp1. destruct (Z.ltb_spec v b), (Z.leb_spec (n - b) v); lia. Qed.
Lemma clamp_inside p b sz : room b sz -> inside (clampImageCoords p b sz) b sz.
Proof. intros (A & B & C). split; apply clamp1_range; auto. Qed.
Lemma clamp_id p b sz : inside p b sz -> clampImageCoords p b sz = p.
Proof. intros [A B]. unfold clampImageCoords. rewrite !clamp1_id by auto. now destruct p. Qed.
Lemma clamp_nearest p q b sz : room b sz -> inside q b sz -> cheb (clampImageCoords p b sz) p <= cheb q p.
Proof.
  intros (A & B & C) [D E]. unfold cheb, clampImageCoords. cbn [fst snd].
  pose proof (clamp1_nearest (fst p) b (fst sz) (fst q) A B D). pose proof (clamp1_nearest (snd p) b (snd sz) (snd q) A C E). lia.
Qed.
Lemma clamp_no_room : exists p b sz, 0 <= b /\ 0 < fst sz /\ 0 < snd sz /\ inside p 0 sz /\ ~ inside (clampImageCoords p b sz) 0 sz.
Proof. exists (0, 0), 1, (1, 5). unfold inside, clampImageCoords, clamp1; cbn. lia. Qed.

(** the scan *)
Definition psum (i : nat) (l : list Z) : Z := fold_right Z.add 0 (firstn i l).
Lemma psum_S i l : (i < length l)%nat -> psum (S i) l = psum i l + nth i l 0.
Proof.
  revert l. induction i as [|i IH]; intros [|w l] H; cbn [length] in H; try lia; unfold psum in *.
  - cbn. lia.
  - change (firstn (S (S i)) (w :: l)) with (w :: firstn (S i) l). change (firstn (S i) (w :: l)) with (w :: firstn i l).
    cbn [fold_right nth]. rewrite IH by lia. lia.
Qed.
Lemma psum_nonneg i l : Forall (fun w => 0 <= w) l -> 0 <= psum i l.
Proof. unfold psum. revert l. induction i; intros l F; destruct F; cbn; try lia. specialize (IHi l F). unfold psum in *. lia. Qed.
Lemma psum_le i j l : Forall (fun w => 0 <= w) l -> (i <= j)%nat -> psum i l <= psum j l.
Proof.
  revert j l. induction i as [|i IH]; intros j l F H.
  - unfold psum at 1. cbn. now apply psum_nonneg.
  - destruct j; [ lia |]. destruct F as [|w l Hw F]; [ unfold psum; cbn; lia |]. specialize (IH j l F ltac:(lia)). unfold psum in *. cbn. lia.
Qed.
Lemma psum_all l : psum (length l) l = fold_right Z.add 0 l. Proof. unfold psum. now rewrite firstn_all. Qed.
Lemma psum_le_all i l : Forall (fun w => 0 <= w) l -> psum i l <= fold_right Z.add 0 l.
Proof.
  intros F. destruct (Nat.le_gt_cases i (length l)); [ rewrite <- psum_all; now apply psum_le |].
  unfold psum. rewrite firstn_all2 by lia. lia.
Qed.

Lemma scan_row_spec l : forall r x, Forall (fun w => 0 <= w) l -> 0 < r ->
  match scan_row l r x with
  | inr y => exists i, y = (x + i)%nat /\ (i < length l)%nat /\ psum i l < r <= psum i l + nth i l 0
  | inl r' => r' = r - fold_right Z.add 0 l /\ 0 < r'
  end.
Proof.
  induction l as [|w l IH]; intros r x F Hr; cbn [scan_row].
  - cbn. lia.
  - inversion F as [|? ? Hw Fl]; subst. destruct (Z.leb_spec (r - w) 0).
    + exists 0%nat. unfold psum. cbn. lia.
    + specialize (IH (r - w) (S x) Fl ltac:(lia)). destruct (scan_row l (r - w) (S x)).
      * cbn. lia.
      * destruct IH as (i & -> & Hi & B). exists (S i). cbn [length nth]. unfold psum in *. cbn [firstn fold_right]. lia.
Qed.

(** start of the block of indices mapped to column i of row j *)
Definition start (K : list (list Z)) (i j : nat) : Z := total (firstn j K) + psum i (nth j K []).

Lemma total_cons l K : total (l :: K) = fold_right Z.add 0 l + total K.
Proof.
  unfold total. cbn [concat]. induction l as [|w l IH]; cbn; [ reflexivity |]. rewrite IH. lia.
Qed.
Lemma total_nonneg K : Forall (fun l => Forall (fun w => 0 <= w) l) K -> 0 <= total K.
Proof. induction 1 as [|l K Hl F IH]; [ unfold total; cbn; lia |]. rewrite total_cons. rewrite <- psum_all. pose proof (psum_nonneg (length l) l Hl). lia. Qed.

Lemma scan_spec K W : forall r y, Forall (fun l => length l = W /\ Forall (fun w => 0 <= w) l) K -> 0 < r <= total K ->
  exists i j, scan K W r y = (i, (y + j)%nat) /\ (j < length K)%nat /\ (i < W)%nat /\ start K i j < r <= start K i j + weight K i j.
Proof.
  induction K as [|l K IH]; intros r y F Hr; [ unfold total in Hr; cbn in Hr; lia |].
  inversion F as [|? ? [Hlen Hl] FK]; subst. cbn [scan]. pose proof (scan_row_spec l r 0 Hl ltac:(lia)) as S.
  destruct (scan_row l r 0) as [r'|x].
  - destruct S as [-> Hp]. rewrite total_cons in Hr. destruct (IH (r - fold_right Z.add 0 l) (S y) FK ltac:(lia)) as (i & j & E & Hj & Hi & B).
    exists i, (S j). rewrite E. split; [ f_equal; lia |]. split; [ cbn; lia |]. split; [ exact Hi |].
    unfold start, weight in *. cbn [firstn nth]. rewrite total_cons. lia.
  - destruct S as (i & -> & Hi & B). exists i, 0%nat. split; [ f_equal; lia |]. split; [ cbn; lia |]. split; [ exact Hi |].
    unfold start, weight. cbn. exact B.
Qed.

(** blocks do not overlap, so the cell found is the only one *)
Lemma total_firstn_S K j : (j < length K)%nat -> total (firstn (S j) K) = total (firstn j K) + fold_right Z.add 0 (nth j K []).
Proof.
  revert K. induction j as [|j IH]; intros [|l K] H; cbn [length] in H; try lia.
  - cbn [firstn nth]. rewrite total_cons. unfold total. cbn. lia.
  - change (firstn (S (S j)) (l :: K)) with (l :: firstn (S j) K). change (firstn (S j) (l :: K)) with (l :: firstn j K).
    rewrite !total_cons. cbn [nth]. rewrite IH by lia. lia.
Qed.
Lemma total_firstn_le K i j : Forall (fun l => Forall (fun w => 0 <= w) l) K -> (i <= j)%nat -> total (firstn i K) <= total (firstn j K).
Proof.
  revert i j. induction K as [|l K IH]; intros i j F H; [ rewrite !firstn_nil; lia |].
  inversion F; subst. destruct i; [ cbn [firstn]; pose proof (total_nonneg (firstn j (l :: K))) as T |].
  - unfold total at 1. cbn. apply T. apply Forall_forall. intros x Hx. rewrite Forall_forall in F. apply F.
    assert (Q : In x (firstn j (l :: K) ++ skipn j (l :: K))) by (apply in_or_app; auto). now rewrite firstn_skipn in Q.
  - destruct j; [ lia |]. cbn [firstn]. rewrite !total_cons. specialize (IH i j ltac:(assumption) ltac:(lia)). lia.
Qed.
Lemma block_end K W i j : Forall (fun l => length l = W /\ Forall (fun w => 0 <= w) l) K -> (j < length K)%nat -> (i < W)%nat ->
  start K i j + weight K i j = total (firstn j K) + psum (S i) (nth j K []).
Proof.
  intros F Hj Hi. unfold start, weight. rewrite psum_S; [ lia |].
  rewrite Forall_forall in F. destruct (F (nth j K []) ltac:(now apply nth_In)) as [L _]. lia.
Qed.
Lemma block_unique K W r i j i' j' : Forall (fun l => length l = W /\ Forall (fun w => 0 <= w) l) K ->
  (j < length K)%nat -> (i < W)%nat -> (j' < length K)%nat -> (i' < W)%nat ->
  start K i j < r <= start K i j + weight K i j -> start K i' j' < r <= start K i' j' + weight K i' j' -> i = i' /\ j = j'.
Proof.
  intros F.
  assert (F' : Forall (fun l => Forall (fun w => 0 <= w) l) K) by (eapply Forall_impl; [| exact F ]; cbv beta; tauto).
  assert (G : forall i j i' j', (j < length K)%nat -> (i < W)%nat -> (j' < length K)%nat -> (i' < W)%nat ->
    start K i j < r <= start K i j + weight K i j -> start K i' j' < r <= start K i' j' + weight K i' j' -> ~ (j < j')%nat /\ ~ (j = j' /\ (i < i')%nat)).
  { clear i j i' j'. intros i j i' j' Hj Hi Hj' Hi' A B. rewrite (block_end K W) in A by auto.
    assert (Fj : Forall (fun w => 0 <= w) (nth j K [])) by (rewrite Forall_forall in F'; apply F', nth_In; lia).
    assert (Fj' : Forall (fun w => 0 <= w) (nth j' K [])) by (rewrite Forall_forall in F'; apply F', nth_In; lia).
    unfold start in B. split.
    - intro L. pose proof (total_firstn_le K (S j) j' F' ltac:(lia)) as T. rewrite total_firstn_S in T by auto.
      pose proof (psum_le_all (S i) _ Fj). pose proof (psum_nonneg i' _ Fj'). lia.
    - intros [<- L]. pose proof (psum_le (S i) i' _ Fj ltac:(lia)). lia. }
  intros Hj Hi Hj' Hi' A B. pose proof (G i j i' j' Hj Hi Hj' Hi' A B). pose proof (G i' j' i j Hj' Hi' Hj Hi B A). lia.
Qed.

Lemma block_bounds K W i j : Forall (fun l => length l = W /\ Forall (fun w => 0 <= w) l) K -> (j < length K)%nat -> (i < W)%nat ->
  0 <= start K i j /\ 0 <= weight K i j /\ start K i j + weight K i j <= total K.
Proof.
  intros F Hj Hi.
  assert (F' : Forall (fun l => Forall (fun w => 0 <= w) l) K) by (eapply Forall_impl; [| exact F ]; cbv beta; tauto).
  assert (Fj : Forall (fun w => 0 <= w) (nth j K [])) by (rewrite Forall_forall in F'; apply F', nth_In; lia).
  pose proof (total_firstn_le K 0 j F' ltac:(lia)) as T0. unfold total at 1 in T0. cbn in T0.
  pose proof (psum_nonneg i _ Fj). pose proof (psum_le i (S i) _ Fj ltac:(lia)) as P.
  pose proof (block_end K W i j F Hj Hi) as E. pose proof (psum_le_all (S i) _ Fj).
  pose proof (total_firstn_le K (S j) (length K) F' ltac:(lia)) as T. rewrite total_firstn_S in T by auto. rewrite firstn_all in T.
  unfold start in *. lia.
Qed.

(** counting *)
Lemma how_many_interval n A w f : 0 <= A -> 0 <= w -> A + w <= Z.of_nat n ->
  (forall k, 0 <= k < Z.of_nat n -> (f k = true <-> A <= k < A + w)) -> Z.of_nat (how_many n f) = w.
Proof.
  intros HA Hw Hn Hf. unfold how_many.
  assert (G : forall m, (m <= n)%nat -> Z.of_nat (length (filter f (map Z.of_nat (seq 0 m)))) = Z.max 0 (Z.min (Z.of_nat m) (A + w) - Z.min (Z.of_nat m) A)).
  { induction m as [|m IH]; intros Hm; [ cbn; lia |].
    rewrite seq_S, map_app, filter_app, app_length. cbn [Nat.add map filter]. specialize (Hf (Z.of_nat m) ltac:(lia)).
    rewrite Nat2Z.inj_add, IH by lia. destruct (f (Z.of_nat m)); cbn [length].
    - assert (A <= Z.of_nat m < A + w) by (now apply Hf). lia.
    - assert (~ (A <= Z.of_nat m < A + w)) by (intro X; apply Hf in X; discriminate). lia. }
  rewrite G by lia. lia.
Qed.

Lemma same_true p q : same p q = true <-> p = q.
Proof.
  unfold same. rewrite andb_true_iff, !Z.eqb_eq. destruct p, q; cbn. split; [ intros []; congruence | intro E; injection E; auto ].
Qed.

Lemma sample_inside K W H tot rnd o b sz : room b sz -> inside (getSamplePosition K W H tot rnd o b sz) b sz.
Proof. intro R. unfold getSamplePosition. destruct (scan K W _ 0). now apply clamp_inside. Qed.

Lemma sample_frequency K W H o b sz i j :
  kernel K W H -> 0 < total K -> (i < W)%nat -> (j < H)%nat ->
  let at_ i j := (fst o - Z.of_nat W / 2 + Z.of_nat i, snd o - Z.of_nat H / 2 + Z.of_nat j) in
  (forall i j, (i < W)%nat -> (j < H)%nat -> inside (at_ i j) b sz) ->
  Z.of_nat (how_many (Z.to_nat (total K)) (fun k => same (getSamplePosition K W H (total K) k o b sz) (at_ i j))) = weight K i j.
Proof.
  intros [HK F] HT Hi Hj at_ Hin. rewrite <- HK in Hj.
  destruct (block_bounds K W i j F Hj Hi) as (B1 & B2 & B3).
  apply (how_many_interval _ (start K i j)); [ lia | lia | lia |].
  intros k Hk. rewrite Z2Nat.id in Hk by lia. rewrite same_true. unfold getSamplePosition.
  rewrite Z.rem_mod_nonneg, Z.mod_small by lia.
  destruct (scan_spec K W (1 + k) 0 F ltac:(lia)) as (i' & j' & E & Hj' & Hi' & B). rewrite E. rewrite Nat.add_0_l.
  assert (Ea : (Z.of_nat i' + (fst o - Z.of_nat W / 2), Z.of_nat j' + (snd o - Z.of_nat H / 2)) = at_ i' j') by (unfold at_; f_equal; lia).
  rewrite Ea, clamp_id by (apply Hin; lia). split.
  - intro X. assert (i' = i /\ j' = j) as [-> ->] by (unfold at_ in X; injection X; lia). lia.
  - intro X. destruct (block_unique K W (1 + k) i' j' i j F Hj' Hi' Hj Hi B ltac:(lia)) as [-> ->]. reflexivity.
Qed.

Lemma sample_periodic K W H tot k o b sz : 0 < tot -> 0 <= k -> getSamplePosition K W H tot (k + tot) o b sz = getSamplePosition K W H tot k o b sz.
Proof.
  intros. unfold getSamplePosition. rewrite !Z.rem_mod_nonneg by lia. replace (k + tot) with (k + 1 * tot) by lia. now rewrite Z.mod_add by lia.
Qed.
Lemma sample_negative K W H tot k o b sz : (0 < W)%nat -> kernel K W H -> (0 < H)%nat -> 0 < tot -> k < 0 -> 0 < weight K 0 0 ->
  getSamplePosition K W H tot k o b sz = clampImageCoords (fst o - Z.of_nat W / 2, snd o - Z.of_nat H / 2) b sz.
Proof.
  intros HW [HK F] HH Ht Hk Hw. unfold getSamplePosition.
  assert (Z.rem k tot <= 0). { pose proof (Z.rem_opp_l k tot ltac:(lia)). pose proof (Z.rem_nonneg (-k) tot ltac:(lia) ltac:(lia)). lia. }
  destruct K as [|[|w l] K]; cbn in HK; try lia.
  - inversion F as [|? ? [L _] _]; subst. cbn in HW. lia.
  - cbn [scan scan_row]. unfold weight in Hw. cbn in Hw. destruct (Z.leb_spec (1 + Z.rem k tot - w) 0); [ reflexivity | lia ].
Qed.

(** concrete kernels *)
Lemma K3_kernel : kernel K3 3 3 /\ total K3 = 256. Proof. split; [ split; [ reflexivity | repeat (constructor; [ split; [ reflexivity | repeat constructor; lia ] |]); constructor ] | reflexivity ]. Qed.
Lemma K7_kernel : kernel K7 7 7 /\ total K7 = 512. Proof. split; [ split; [ reflexivity | repeat (constructor; [ split; [ reflexivity | repeat constructor; lia ] |]); constructor ] | reflexivity ]. Qed.

Lemma sample3_frequency o b sz i j : (i < 3)%nat -> (j < 3)%nat -> room b sz ->
  b + 1 <= fst o <= fst sz - b - 2 -> b + 1 <= snd o <= snd sz - b - 2 ->
  Z.of_nat (how_many 256 (fun k => same (getSamplePosition_3x3_std1 k o b sz) (fst o - 1 + Z.of_nat i, snd o - 1 + Z.of_nat j))) = weight K3 i j.
Proof.
  intros Hi Hj R A B. destruct K3_kernel as [HK HT]. unfold getSamplePosition_3x3_std1.
  pose proof (sample_frequency K3 3 3 o b sz i j HK ltac:(rewrite HT; lia) Hi Hj) as S. cbv zeta in S. rewrite HT in S.
  change (Z.of_nat 3 / 2) with 1 in S. change (Z.to_nat 256) with 256%nat in S. apply S.
  intros i' j' Hi' Hj'. unfold inside. cbn [fst snd]. lia.
Qed.
Lemma sample7_frequency o b sz i j : (i < 7)%nat -> (j < 7)%nat -> room b sz ->
  b + 3 <= fst o <= fst sz - b - 4 -> b + 3 <= snd o <= snd sz - b - 4 ->
  Z.of_nat (how_many 512 (fun k => same (getSamplePosition_7x7_std2 k o b sz) (fst o - 3 + Z.of_nat i, snd o - 3 + Z.of_nat j))) = weight K7 i j.
Proof.
  intros Hi Hj R A B. destruct K7_kernel as [HK HT]. unfold getSamplePosition_7x7_std2.
  pose proof (sample_frequency K7 7 7 o b sz i j HK ltac:(rewrite HT; lia) Hi Hj) as S. cbv zeta in S. rewrite HT in S.
  change (Z.of_nat 7 / 2) with 3 in S. change (Z.to_nat 512) with 512%nat in S. apply S.
  intros i' j' Hi' Hj'. unfold inside. cbn [fst snd]. lia.
Qed.

(** neighbours *)
Lemma neighbor_ok pat rnd o b sz : pat <> [] -> 0 <= rnd -> room b sz ->
  exists p, getNeighborPosition pat rnd o b sz = Some p /\ inside p b sz.
Proof.
  intros Hp Hr R. unfold getNeighborPosition.
  assert (L : (0 < length pat)%nat) by (destruct pat; [ congruence | cbn; lia ]).
  rewrite Z.rem_mod_nonneg by lia. pose proof (Z.mod_pos_bound rnd (Z.of_nat (length pat)) ltac:(lia)) as M.
  destruct (Z.ltb_spec (rnd mod Z.of_nat (length pat)) 0); [ lia |].
  destruct (nth_error pat (Z.to_nat (rnd mod Z.of_nat (length pat)))) eqn:E.
  - eexists. split; [ reflexivity |]. now apply clamp_inside.
  - apply nth_error_None in E. lia.
Qed.
Definition hits (q : Z * Z) (r : option (Z * Z)) : bool := match r with Some p => same p q | None => false end.
Lemma neighbor_unclamped pat rnd o b sz q : 0 <= rnd < Z.of_nat (length pat) ->
  (forall d, In d pat -> inside (fst o + fst d, snd o + snd d) b sz) ->
  getNeighborPosition pat rnd o b sz = Some q <-> nth_error pat (Z.to_nat rnd) = Some (fst q - fst o, snd q - snd o).
Proof.
  intros Hr Hin. unfold getNeighborPosition. rewrite Z.rem_mod_nonneg, Z.mod_small by lia.
  destruct (Z.ltb_spec rnd 0); [ lia |]. destruct (nth_error pat (Z.to_nat rnd)) as [d|] eqn:E; [| split; discriminate ].
  rewrite clamp_id by (apply Hin; eapply nth_error_In; eauto). destruct q as [qx qy], d as [dx dy]. cbn [fst snd].
  split; intro X; injection X as X1 X2; do 2 f_equal; lia.
Qed.
Definition occ (q : Z * Z) (pat : list (Z * Z)) : nat := length (filter (same q) pat).
Lemma how_many_occ pat q f : (forall k, (k < length pat)%nat -> f (Z.of_nat k) = match nth_error pat k with Some d => same q d | None => false end) ->
  how_many (length pat) f = occ q pat.
Proof.
  unfold how_many, occ. intro H.
  assert (G : forall pat s, (forall k, (k < length pat)%nat -> f (Z.of_nat (s + k)) = match nth_error pat k with Some d => same q d | None => false end) ->
    length (filter f (map Z.of_nat (seq s (length pat)))) = length (filter (same q) pat)).
  { clear. induction pat as [|d pat IH]; intros s H; [ reflexivity |]. cbn [length seq map filter].
    pose proof (H 0%nat ltac:(cbn; lia)) as H0. rewrite Nat.add_0_r in H0. cbn in H0. rewrite H0.
    assert (length (filter f (map Z.of_nat (seq (S s) (length pat)))) = length (filter (same q) pat)) as E.
    { apply IH. intros k Hk. specialize (H (S k) ltac:(cbn; lia)). cbn [nth_error] in H. rewrite <- H. f_equal. lia. }
    destruct (same q d); cbn [length]; now rewrite E. }
  apply (G pat 0%nat). exact H.
Qed.
Lemma neighbor_frequency pat o b sz q : (forall d, In d pat -> inside (fst o + fst d, snd o + snd d) b sz) ->
  how_many (length pat) (fun k => hits q (getNeighborPosition pat k o b sz)) = occ (fst q - fst o, snd q - snd o) pat.
Proof.
  intro Hin. apply how_many_occ. intros k Hk.
  destruct (nth_error pat k) as [d|] eqn:E; [| apply nth_error_None in E; lia ].
  pose proof (neighbor_unclamped pat (Z.of_nat k) o b sz (fst o + fst d, snd o + snd d) ltac:(lia) Hin) as N.
  rewrite Nat2Z.id in N. rewrite (proj2 N). 2: { rewrite E. cbn [fst snd]. destruct d as [dx dy]. cbn. do 2 f_equal; lia. }
  cbn [hits]. apply eq_true_iff_eq. rewrite !same_true. destruct q as [qx qy], d as [dx dy]. cbn [fst snd].
  split; intro X; injection X as X1 X2; f_equal; lia.
Qed.

Lemma occ_cons q d l : occ q (d :: l) = ((if same q d then 1 else 0) + occ q l)%nat.
Proof. unfold occ. cbn [filter]. destruct (same q d); reflexivity. Qed.
Lemma occ_nil q : occ q [] = 0%nat. Proof. reflexivity. Qed.
Lemma neighbor8_exactly_once o b sz dx dy : room b sz -> b + 1 <= fst o <= fst sz - b - 2 -> b + 1 <= snd o <= snd sz - b - 2 ->
  how_many 8 (fun k => hits (fst o + dx, snd o + dy) (getNeighborPosition_3x3 k o b sz)) =
  if (Z.abs dx <=? 1) && (Z.abs dy <=? 1) && negb ((dx =? 0) && (dy =? 0)) then 1%nat else 0%nat.
Proof.
  intros R A B. unfold getNeighborPosition_3x3. change 8%nat with (length N8). rewrite neighbor_frequency.
  - cbn [fst snd]. replace (fst o + dx - fst o) with dx by lia. replace (snd o + dy - snd o) with dy by lia.
    unfold N8. rewrite !occ_cons, occ_nil. unfold same. cbn [fst snd].
    destruct (Z.leb_spec (Z.abs dx) 1), (Z.leb_spec (Z.abs dy) 1); cbn [andb negb].
    + assert (X : dx = -1 \/ dx = 0 \/ dx = 1) by lia. assert (Y : dy = -1 \/ dy = 0 \/ dy = 1) by lia.
      destruct X as [ -> | [ -> | -> ]], Y as [ -> | [ -> | -> ]]; reflexivity.
    + destruct (Z.eqb_spec dy (-1)), (Z.eqb_spec dy 0), (Z.eqb_spec dy 1); try lia. rewrite !andb_false_r. reflexivity.
    + destruct (Z.eqb_spec dx (-1)), (Z.eqb_spec dx 0), (Z.eqb_spec dx 1); try lia. reflexivity.
    + destruct (Z.eqb_spec dx (-1)), (Z.eqb_spec dx 0), (Z.eqb_spec dx 1); try lia. reflexivity.
  - intros d Hd. unfold inside. cbn [fst snd]. cbn in Hd.
    repeat (destruct Hd as [ <- | Hd ]; [ cbn [fst snd]; lia |]). destruct Hd.
Qed.
Lemma neighbor24_exactly_once o b sz dx dy : room b sz -> b + 2 <= fst o <= fst sz - b - 3 -> b + 2 <= snd o <= snd sz - b - 3 ->
  how_many 24 (fun k => hits (fst o + dx, snd o + dy) (getNeighborPosition_5x5 k o b sz)) =
  if (Z.abs dx <=? 2) && (Z.abs dy <=? 2) && negb ((dx =? 0) && (dy =? 0)) then 1%nat else 0%nat.
Proof.
  intros R A B. unfold getNeighborPosition_5x5. change 24%nat with (length N24). rewrite neighbor_frequency.
  - cbn [fst snd]. replace (fst o + dx - fst o) with dx by lia. replace (snd o + dy - snd o) with dy by lia.
    unfold N24. rewrite !occ_cons, occ_nil. unfold same. cbn [fst snd].
    destruct (Z.leb_spec (Z.abs dx) 2), (Z.leb_spec (Z.abs dy) 2); cbn [andb negb].
    + assert (X : dx = -2 \/ dx = -1 \/ dx = 0 \/ dx = 1 \/ dx = 2) by lia. assert (Y : dy = -2 \/ dy = -1 \/ dy = 0 \/ dy = 1 \/ dy = 2) by lia.
      destruct X as [ -> | [ -> | [ -> | [ -> | -> ]]]], Y as [ -> | [ -> | [ -> | [ -> | -> ]]]]; reflexivity.
    + destruct (Z.eqb_spec dy (-1)), (Z.eqb_spec dy 0), (Z.eqb_spec dy 1), (Z.eqb_spec dy (-2)), (Z.eqb_spec dy 2); try lia. rewrite !andb_false_r. reflexivity.
    + destruct (Z.eqb_spec dx (-1)), (Z.eqb_spec dx 0), (Z.eqb_spec dx 1), (Z.eqb_spec dx (-2)), (Z.eqb_spec dx 2); try lia. reflexivity.
    + destruct (Z.eqb_spec dx (-1)), (Z.eqb_spec dx 0), (Z.eqb_spec dx 1), (Z.eqb_spec dx (-2)), (Z.eqb_spec dx 2); try lia. reflexivity.
  - intros d Hd. unfold inside. cbn [fst snd]. cbn in Hd.
    repeat (destruct Hd as [ <- | Hd ]; [ cbn [fst snd]; lia |]). destruct Hd.
Qed.
Lemma neighbor_within pat rnd o b sz p n : room b sz -> inside o b sz -> (forall d, In d pat -> Z.max (Z.abs (fst d)) (Z.abs (snd d)) <= n) ->
  getNeighborPosition pat rnd o b sz = Some p -> cheb p o <= n.
Proof.
  intros (R0 & R1 & R2) [I1 I2] Hn. unfold getNeighborPosition. destruct (_ <? 0); [ discriminate |].
  destruct (nth_error pat _) as [d|] eqn:E; [| discriminate ]. intro X. injection X as <-.
  specialize (Hn d (nth_error_In _ _ E)). unfold cheb, clampImageCoords, clamp1. cbn [fst snd].
  repeat match goal with |- context [?a <? ?b] => destruct (Z.ltb_spec a b) | |- context [?a <=? ?b] => destruct (Z.leb_spec a b) end; lia.
Qed.
Lemma neighbor_negative pat rnd o b sz : Z.rem rnd (Z.of_nat (length pat)) < 0 -> getNeighborPosition pat rnd o b sz = None.
Proof. intro H. unfold getNeighborPosition. destruct (Z.ltb_spec (Z.rem rnd (Z.of_nat (length pat))) 0); [ reflexivity | lia ]. Qed.
