From Coq Require Import ZArith QArith Qround Qabs List Bool Lia Lqa Znumtheory.
From Verif Require Import Lib.Grid Model.Warp Spec.Warp.
Import ListNotations.
Open Scope Z_scope.

(* ------------------------------------------------------------------ loops *)

Lemma divide_ge g n k : 0 < g -> (g | n) -> (g | k) -> n < k -> n + g <= k.
Proof. intros Hg (a & ->) (b & ->) L. assert (a < b) by nia. nia. Qed.

Lemma nodes_from_in f g size n k :
  0 < g -> 0 < size -> 0 <= n -> (g | n) -> n < size + g -> Z.of_nat f > Z.max 0 (size - n) ->
  (In k (nodes_from f g size n) <-> (n <= k < size /\ (g | k)) \/ (k = size - 1 /\ n < size + g - 1)).
Proof.
  intros Hg Hs. revert n. induction f as [|f IH]; intros n Hn D L F; [ lia | ].
  cbn [nodes_from].
  destruct (Z.leb_spec size n) as [Hle|Hlt]; cbn [andb].
  - destruct (Z.ltb_spec n (size + g - 1)).
    + assert (E : nodes_from f g size (size - 1 + g) = []).
      { destruct f; [ reflexivity | ]. cbn [nodes_from].
        destruct (Z.leb_spec size (size - 1 + g)); [ | lia ]. destruct (Z.ltb_spec (size - 1 + g) (size + g - 1)); [ lia | reflexivity ]. }
      rewrite E. cbn. split; [ intros [ <- | [] ]; right; lia | intros [ [? ?] | [-> _] ]; [ lia | left; reflexivity ] ].
    + cbn. split; [ tauto | intros [ [? ?] | [? ?] ]; lia ].
  - cbn [In]. rewrite IH; try lia.
    2:{ apply Z.divide_add_r; auto. apply Z.divide_refl. }
    split.
    + intros [ -> | [ [? ?] | [? ?] ] ]; [ left; split; [ lia | auto ] | left; split; [ lia | auto ] | right; lia ].
    + intros [ [? Dk] | [? ?] ].
      * destruct (Z.eq_dec n k); [ left; auto | right; left; split; auto ]. pose proof (divide_ge g n k Hg D Dk). lia.
      * destruct (Z.eq_dec n k); [ left; auto | right; right; lia ].
Qed.

Lemma nodes_in g size k : 0 < g -> 0 < size -> (In k (nodes g size) <-> node g size k).
Proof.
  intros Hg Hs. unfold nodes, node. rewrite nodes_from_in; try lia; [ | apply Z.divide_0_r ].
  split; [ intros [ [? ?] | [? ?] ]; split; auto; lia | intros [? [?|?] ]; [ left; auto | right; lia ] ].
Qed.

Lemma nodes_fuel f f' g size n :
  0 < g -> 0 < size -> 0 <= n -> n < size + g -> Z.of_nat f > Z.max 0 (size - n) -> Z.of_nat f' > Z.max 0 (size - n) ->
  nodes_from f g size n = nodes_from f' g size n.
Proof.
  intros Hg Hs. revert f' n. induction f as [|f IH]; intros f' n Hn L F F'; [ lia | ].
  destruct f' as [|f']; [ lia | ]. cbn [nodes_from].
  destruct (Z.leb_spec size n) as [Hle|Hlt]; cbn [andb].
  - destruct (Z.ltb_spec n (size + g - 1)); [ | reflexivity ]. f_equal.
    assert (E : forall h, nodes_from h g size (size - 1 + g) = []).
    { intros h. destruct h; [ reflexivity | ]. cbn [nodes_from].
      destruct (Z.leb_spec size (size - 1 + g)); [ | lia ]. destruct (Z.ltb_spec (size - 1 + g) (size + g - 1)); [ lia | reflexivity ]. }
    rewrite !E. reflexivity.
  - f_equal. apply IH; lia.
Qed.

Lemma strides_from_in f g size n k :
  0 < g -> (g | n) -> Z.of_nat f > Z.max 0 (size - n) ->
  (In k (strides_from f g size n) <-> n <= k < size /\ (g | k)).
Proof.
  intros Hg. revert n. induction f as [|f IH]; intros n D F; [ lia | ].
  cbn [strides_from]. destruct (Z.ltb_spec n size).
  - cbn [In]. rewrite IH; [ | apply Z.divide_add_r; auto; apply Z.divide_refl | lia ].
    split; [ intros [ -> | [? ?] ]; split; auto; lia | ].
    intros [? Dk]. destruct (Z.eq_dec n k); [ left; auto | right; split; auto ]. pose proof (divide_ge g n k Hg D Dk). lia.
  - cbn. split; [ tauto | intros [? ?]; lia ].
Qed.

Lemma strides_in g size k : 0 < g -> (In k (strides g size) <-> 0 <= k < size /\ (g | k)).
Proof. intros. unfold strides. apply strides_from_in; auto; [ apply Z.divide_0_r | lia ]. Qed.

Lemma strides_from_nodup f g size n : 0 < g -> NoDup (strides_from f g size n) /\ (forall k, In k (strides_from f g size n) -> n <= k).
Proof.
  intros Hg. revert n. induction f as [|f IH]; intros n; cbn; [ split; [ constructor | tauto ] | ].
  destruct (n <? size); cbn; [ | split; [ constructor | tauto ] ].
  destruct (IH (n + g)) as [N B]. split.
  - constructor; auto. intros I. specialize (B _ I). lia.
  - intros k [ <- | I ]; [ lia | specialize (B _ I); lia ].
Qed.

Lemma strides_nodup g size : 0 < g -> NoDup (strides g size).
Proof. intros. apply strides_from_nodup; auto. Qed.

Lemma extent_le g size n : 0 < g -> 0 <= n < size -> extent g size n = Z.min g (size - n).
Proof. intros. unfold extent, next. destruct (Z.leb_spec size (n + g)); lia. Qed.

Lemma next_min g size n : 0 < g -> 0 <= n < size -> next g size n = Z.min (n + g) (size - 1).
Proof. intros. unfold next. destruct (Z.leb_spec size (n + g)); lia. Qed.

Lemma next_node g size n : 0 < g -> 0 <= n < size -> (g | n) -> node g size (next g size n).
Proof.
  intros Hg Hn D. rewrite next_min by auto. unfold node. split; [ lia | ].
  destruct (Z.leb_spec (n + g) (size - 1)); [ left | right; lia ].
  rewrite Z.min_l by lia. apply Z.divide_add_r; auto. apply Z.divide_refl.
Qed.

(* the cell of a row *)
Lemma cell_row g size n : 0 < g -> 0 <= n < size ->
  exists row off, (0 <= row < size /\ (g | row)) /\ 0 <= off < extent g size row /\ n = row + off.
Proof.
  intros Hg Hn. exists (n / g * g), (n mod g).
  pose proof (Z.div_mod n g ltac:(lia)). pose proof (Z.mod_pos_bound n g Hg).
  assert (0 <= n / g) by (apply Z.div_pos; lia).
  assert (0 <= n / g * g < size) by nia.
  split; [ split; auto; apply Z.divide_factor_r | ]. rewrite extent_le by auto. lia.
Qed.

Lemma cell_unique g size row row' off off' : 0 < g -> 0 <= row < size -> 0 <= row' < size -> (g | row) -> (g | row') ->
  0 <= off < extent g size row -> 0 <= off' < extent g size row' -> row + off = row' + off' -> row = row' /\ off = off'.
Proof.
  intros Hg H1 H2 D1 D2. rewrite !extent_le by auto. intros.
  destruct (Z.lt_trichotomy row row') as [L|[E|L]]; [ | lia | ].
  - pose proof (divide_ge g row row' Hg D1 D2 L). lia.
  - pose proof (divide_ge g row' row Hg D2 D1 L). lia.
Qed.

Lemma nodup_flat {A B} (f : A -> list B) l :
  NoDup l -> (forall a, In a l -> NoDup (f a)) -> (forall a b x, In a l -> In b l -> In x (f a) -> In x (f b) -> a = b) -> NoDup (flat_map f l).
Proof.
  intros N. induction N as [|a l Ha N IH]; intros F D; cbn; [ constructor | ].
  assert (N1 : NoDup (f a)) by (apply F; left; auto).
  assert (N2 : NoDup (flat_map f l)).
  { apply IH; [ intros; apply F; right; auto | intros; eapply D; eauto; right; auto ]. }
  assert (DJ : forall x, In x (f a) -> ~ In x (flat_map f l)).
  { intros x I1 I2. apply in_flat_map in I2. destruct I2 as (b & Ib & Ix). assert (a = b) by (eapply D; eauto; [ left | right ]; auto). subst. auto. }
  clear -N1 N2 DJ. induction N1 as [|x l1 Hx N1 IH]; cbn; auto. constructor.
  - intros I. apply in_app_or in I. destruct I as [I|I]; [ auto | ]. apply (DJ x); [ left; auto | auto ].
  - apply IH. intros y Iy. apply DJ. right; auto.
Qed.

Section Writes.
  Context (f : field) (g sh sw h w ch : Z) (img : image) (ratio : Q).
  Context (Hg : 0 < g).

  Lemma warp_in r c o : In ((r, c), o) (warp f g sh sw h w ch img ratio) <->
    exists row col crow ccol, (0 <= row < h /\ (g | row)) /\ (0 <= col < w /\ (g | col)) /\
      0 <= crow < extent g h row /\ 0 <= ccol < extent g w col /\ r = row + crow /\ c = col + ccol /\
      o = warp_pixel f g sh sw h w ch img ratio row col crow ccol.
  Proof.
    unfold warp. split.
    - intros I. apply in_flat_map in I. destruct I as (row & Ir & I). apply in_flat_map in I. destruct I as (col & Ic & I).
      apply in_flat_map in I. destruct I as (crow & Icr & I). apply in_map_iff in I. destruct I as (ccol & E & Icc).
      apply strides_in in Ir; auto. apply strides_in in Ic; auto. rewrite in_zrange in Icr, Icc.
      exists row, col, crow, ccol. inversion E; subst. repeat split; try tauto; lia.
    - intros (row & col & crow & ccol & Ir & Ic & Icr & Icc & -> & -> & ->).
      apply in_flat_map. exists row. split; [ apply strides_in; auto | ].
      apply in_flat_map. exists col. split; [ apply strides_in; auto | ].
      apply in_flat_map. exists crow. split; [ apply in_zrange; lia | ].
      apply in_map_iff. exists ccol. split; [ reflexivity | apply in_zrange; lia ].
  Qed.

  Lemma warp_covers r c : In (r, c) (map fst (warp f g sh sw h w ch img ratio)) <-> 0 <= r < h /\ 0 <= c < w.
  Proof.
    split.
    - intros I. apply in_map_iff in I. destruct I as (((r' & c') & o) & E & I). inversion E; subst.
      apply warp_in in I. destruct I as (row & col & crow & ccol & [Ir _] & [Ic _] & Icr & Icc & -> & -> & _).
      rewrite extent_le in Icr, Icc by auto. lia.
    - intros [Hr Hc].
      destruct (cell_row g h r Hg Hr) as (row & crow & Hrow & Hcrow & ->).
      destruct (cell_row g w c Hg Hc) as (col & ccol & Hcol & Hccol & ->).
      apply in_map_iff. eexists. split; [ | apply warp_in; exists row, col, crow, ccol; repeat split; try tauto; try lia; reflexivity ].
      reflexivity.
  Qed.

  Lemma warp_once : NoDup (map fst (warp f g sh sw h w ch img ratio)).
  Proof.
    assert (M : map fst (warp f g sh sw h w ch img ratio) =
      flat_map (fun row => flat_map (fun col => flat_map (fun crow => map (fun ccol => (row + crow, col + ccol))
        (zrange 0 (extent g w col))) (zrange 0 (extent g h row))) (strides g w)) (strides g h)).
    { unfold warp. rewrite !flat_map_concat_map, concat_map, map_map. f_equal. apply map_ext; intros row.
      rewrite !flat_map_concat_map, concat_map, map_map. f_equal. apply map_ext; intros col.
      rewrite !flat_map_concat_map, concat_map, map_map. f_equal. apply map_ext; intros crow.
      rewrite map_map. reflexivity. }
    rewrite M. apply nodup_flat; [ apply strides_nodup; auto | | ].
    - intros row Ir. apply strides_in in Ir; auto. apply nodup_flat; [ apply strides_nodup; auto | | ].
      + intros col Ic. apply strides_in in Ic; auto. apply nodup_flat; [ apply nodup_zseq | | ].
        * intros crow Icr. apply FinFun.Injective_map_NoDup; [ | apply nodup_zseq ]. intros a b E. inversion E. lia.
        * intros a b x Ia Ib I1 I2. apply in_map_iff in I1. apply in_map_iff in I2.
          destruct I1 as (i & E1 & _), I2 as (j & E2 & _). subst. inversion E2. lia.
      + intros a b x Ia Ib I1 I2. apply strides_in in Ia; auto. apply strides_in in Ib; auto.
        apply in_flat_map in I1. apply in_flat_map in I2. destruct I1 as (? & _ & I1), I2 as (? & _ & I2).
        apply in_map_iff in I1. apply in_map_iff in I2. destruct I1 as (i & E1 & J1), I2 as (j & E2 & J2).
        rewrite in_zrange in J1, J2. subst. inversion E2.
        apply (cell_unique g w a b i j); try tauto; lia.
    - intros a b x Ia Ib I1 I2. apply strides_in in Ia; auto. apply strides_in in Ib; auto.
      apply in_flat_map in I1. apply in_flat_map in I2. destruct I1 as (? & _ & I1), I2 as (? & _ & I2).
      apply in_flat_map in I1. apply in_flat_map in I2. destruct I1 as (i & J1 & I1), I2 as (j & J2 & I2).
      apply in_map_iff in I1. apply in_map_iff in I2. destruct I1 as (? & E1 & _), I2 as (? & E2 & _).
      rewrite in_zrange in J1, J2. subst. inversion E2.
      apply (cell_unique g h a b i j); try tauto; lia.
  Qed.
End Writes.

(* ------------------------------------------------------------------ the displacement field *)

Lemma put_rows v rows col : forall f r c,
  fold_left (fun f row => put f row col (v row col)) rows f r c =
  if (c =? col) && existsb (Z.eqb r) rows then v r c else f r c.
Proof.
  induction rows as [|row rows IH]; intros f r c; cbn.
  - rewrite andb_false_r. reflexivity.
  - rewrite IH. unfold put. destruct (Z.eqb_spec c col); cbn; subst.
    + destruct (existsb (Z.eqb r) rows); [ rewrite orb_true_r; reflexivity | ]. rewrite orb_false_r.
      destruct (Z.eqb_spec r row); cbn; subst; reflexivity.
    + rewrite andb_false_r. reflexivity.
Qed.

Lemma put_cols v rows cols : forall f r c,
  fold_left (fun f col => fold_left (fun f row => put f row col (v row col)) rows f) cols f r c =
  if existsb (Z.eqb c) cols && existsb (Z.eqb r) rows then v r c else f r c.
Proof.
  induction cols as [|col cols IH]; intros f r c; cbn; [ reflexivity | ].
  rewrite IH, put_rows. destruct (existsb (Z.eqb c) cols), (Z.eqb c col), (existsb (Z.eqb r) rows); cbn; reflexivity.
Qed.

Lemma existsb_in n l : existsb (Z.eqb n) l = true <-> In n l.
Proof.
  rewrite existsb_exists. split.
  - intros (x & I & E). apply Z.eqb_eq in E. subst. auto.
  - intros I. exists n. split; auto. apply Z.eqb_refl.
Qed.

Lemma transform_node m pts g h w r c :
  0 < g -> 0 < h -> 0 < w -> (2 <= length pts)%nat -> node g h r -> node g w c ->
  computeTransform m pts g h w r c = entry m pts r c.
Proof.
  intros Hg Hh Hw L Nr Nc. unfold computeTransform. destruct (Nat.ltb_spec (length pts) 2); [ lia | ].
  rewrite put_cols. rewrite (proj2 (existsb_in c _)), (proj2 (existsb_in r _)); [ reflexivity | | ]; apply nodes_in; auto.
Qed.

Lemma transform_off m pts g h w r c :
  0 < g -> 0 < h -> 0 < w -> (2 <= length pts)%nat -> ~ (node g h r /\ node g w c) ->
  computeTransform m pts g h w r c = Unset.
Proof.
  intros Hg Hh Hw L N. unfold computeTransform. destruct (Nat.ltb_spec (length pts) 2); [ lia | ].
  rewrite put_cols. destruct (existsb (Z.eqb c) (nodes g w) && existsb (Z.eqb r) (nodes g h)) eqn:E; [ | reflexivity ].
  apply andb_true_iff in E. destruct E as [E1 E2]. apply existsb_in in E1. apply existsb_in in E2.
  apply nodes_in in E1; auto. apply nodes_in in E2; auto. tauto.
Qed.

Lemma transform_set m pts g h w r c :
  0 < g -> 0 < h -> 0 < w -> node g h r -> node g w c -> computeTransform m pts g h w r c <> Unset.
Proof.
  intros Hg Hh Hw Nr Nc. destruct (Nat.ltb_spec (length pts) 2) as [L|L].
  - unfold computeTransform. destruct (Nat.ltb_spec (length pts) 2); [ discriminate | lia ].
  - rewrite transform_node by auto. unfold entry. destruct (moved _ _ _ _) as [[? ?]|]; discriminate.
Qed.

Lemma node_self g size n : 0 <= n < size -> (g | n) -> node g size n.
Proof. intros; split; auto. Qed.

Lemma warp_no_unset m pts g sh sw h w ch img ratio rc o :
  0 < g -> In (rc, o) (warp (computeTransform m pts g h w) g sh sw h w ch img ratio) -> o <> Unset_read.
Proof.
  intros Hg I. destruct rc as [r c]. apply warp_in in I; auto.
  destruct I as (row & col & crow & ccol & [Hr Dr] & [Hc Dc] & _ & _ & _ & _ & ->).
  unfold warp_pixel, displacement.
  pose proof (node_self g h row Hr Dr) as N1. pose proof (node_self g w col Hc Dc) as N2.
  pose proof (next_node g h row Hg Hr Dr) as N3. pose proof (next_node g w col Hg Hc Dc) as N4.
  assert (0 < h) by lia. assert (0 < w) by lia.
  pose proof (transform_set m pts g h w row col Hg ltac:(lia) ltac:(lia) N1 N2).
  pose proof (transform_set m pts g h w row _ Hg ltac:(lia) ltac:(lia) N1 N4).
  pose proof (transform_set m pts g h w _ col Hg ltac:(lia) ltac:(lia) N3 N2).
  pose proof (transform_set m pts g h w _ _ Hg ltac:(lia) ltac:(lia) N3 N4).
  destruct (computeTransform m pts g h w row col), (computeTransform m pts g h w row (next g w col)),
    (computeTransform m pts g h w (next g h row) col), (computeTransform m pts g h w (next g h row) (next g w col)); congruence.
Qed.

(* ------------------------------------------------------------------ sampling *)

Open Scope Q_scope.

Global Instance interp_proper : Proper (Qeq ==> Qeq ==> Qeq ==> Qeq ==> Qeq ==> Qeq ==> Qeq) interp.
Proof. intros a a' Ha b b' Hb c c' Hc d d' Hd e e' He f f' Hf. unfold interp. rewrite Ha, Hb, Hc, Hd, He, Hf. reflexivity. Qed.

Global Instance sample_proper : Proper (eq ==> Qeq ==> Qeq ==> eq ==> eq) sample.
Proof.
  intros i i' <- a a' Ha b b' Hb c c' <-. unfold sample.
  rewrite (Qfloor_comp _ _ Ha), (Qfloor_comp _ _ Hb), (Qceiling_comp _ _ Ha), (Qceiling_comp _ _ Hb).
  apply Qfloor_comp. rewrite Ha, Hb. reflexivity.
Qed.

Lemma qmin_cases a b : (a <= b /\ qmin a b = a) \/ (b < a /\ qmin a b = b).
Proof.
  unfold qmin. destruct (Qle_bool a b) eqn:E; [ left | right ]; split; auto.
  - apply Qle_bool_iff; auto.
  - apply Qnot_le_lt. intros L. apply Qle_bool_iff in L. congruence.
Qed.

Lemma qmax_cases a b : (b <= a /\ qmax a b = a) \/ (a < b /\ qmax a b = b).
Proof.
  unfold qmax. destruct (Qle_bool b a) eqn:E; [ left | right ]; split; auto.
  - apply Qle_bool_iff; auto.
  - apply Qnot_le_lt. intros L. apply Qle_bool_iff in L. congruence.
Qed.

Global Instance clamp_proper : Proper (Qeq ==> eq ==> Qeq) clamp.
Proof.
  intros a b E s s' <-. unfold clamp.
  destruct (qmin_cases a (inject_Z s - 1)) as [[? Ea]|[? Ea]], (qmin_cases b (inject_Z s - 1)) as [[? Eb]|[? Eb]]; rewrite Ea, Eb;
  repeat match goal with |- context[qmax ?u ?v] => destruct (qmax_cases u v) as [[? ->]|[? ->]] end; lra.
Qed.

Lemma inject_minus1 s : inject_Z s - 1 == inject_Z (s - 1).
Proof.
  assert (E : inject_Z (s - 1) == inject_Z s + inject_Z (-1)) by (rewrite <- inject_Z_plus; apply inject_Z_injective; lia).
  rewrite E. change (inject_Z (-1)) with (-1#1). lra.
Qed.

Lemma clamp_range v size : (0 < size)%Z -> 0 <= clamp v size <= inject_Z (size - 1).
Proof.
  intros H. assert (0 <= inject_Z size - 1).
  { assert (inject_Z 1 <= inject_Z size) by (rewrite <- Zle_Qle; lia). change (inject_Z 1) with 1 in *. lra. }
  rewrite <- inject_minus1. unfold clamp. destruct (qmin_cases v (inject_Z size - 1)) as [[? ->]|[? ->]];
  match goal with |- context[qmax ?u ?v] => destruct (qmax_cases u v) as [[? ->]|[? ->]] end; lra.
Qed.

Lemma clamp_int n size : (0 < size)%Z -> clamp (inject_Z n) size == inject_Z (nearest n size).
Proof.
  intros H. unfold clamp, nearest. pose proof (inject_minus1 size) as E.
  destruct (qmin_cases (inject_Z n) (inject_Z size - 1)) as [[L ->]|[L ->]]; rewrite E in *.
  - rewrite <- Zle_Qle in L. rewrite Z.min_l by lia.
    destruct (qmax_cases (inject_Z n) 0) as [[L' ->]|[L' ->]].
    + change 0 with (inject_Z 0) in L'. rewrite <- Zle_Qle in L'. rewrite Z.max_r by lia. reflexivity.
    + change 0 with (inject_Z 0) in L'. rewrite <- Zlt_Qlt in L'. rewrite Z.max_l by lia. reflexivity.
  - rewrite <- Zlt_Qlt in L. rewrite Z.min_r by lia. rewrite Z.max_r by lia.
    destruct (qmax_cases (inject_Z size - 1) 0) as [[L' ->]|[L' ->]]; rewrite E in *; [ reflexivity | ].
    change 0 with (inject_Z 0) in L'. rewrite <- Zlt_Qlt in L'. lia.
Qed.

Lemma nearest_in n size : (0 <= n < size)%Z -> nearest n size = n.
Proof. unfold nearest. lia. Qed.

Lemma sample_int img r c ch : sample img (inject_Z r) (inject_Z c) ch = img r c ch.
Proof.
  unfold sample. rewrite !Qfloor_Z, !Qceiling_Z.
  transitivity (Qfloor (inject_Z (img r c ch))); [ | apply Qfloor_Z ].
  apply Qfloor_comp. unfold interp. ring.
Qed.

Lemma floor_range v n : 0 <= v <= inject_Z n -> (0 <= Qfloor v <= n)%Z /\ (0 <= Qceiling v <= n)%Z.
Proof.
  intros [A B]. pose proof (Qfloor_resp_le _ _ A) as F1. pose proof (Qfloor_resp_le _ _ B) as F2. rewrite Qfloor_Z in F2.
  pose proof (Qceiling_resp_le _ _ A) as C1. pose proof (Qceiling_resp_le _ _ B) as C2. rewrite Qceiling_Z in C2.
  change (Qfloor 0) with 0%Z in F1. change (Qceiling 0) with 0%Z in C1. lia.
Qed.

Lemma sample_inside img img' sh sw orow ocol ch :
  0 <= orow <= inject_Z (sh - 1) -> 0 <= ocol <= inject_Z (sw - 1) ->
  (forall r c, (0 <= r < sh)%Z -> (0 <= c < sw)%Z -> img r c ch = img' r c ch) ->
  sample img orow ocol ch = sample img' orow ocol ch.
Proof.
  intros Hr Hc E. destruct (floor_range _ _ Hr), (floor_range _ _ Hc). unfold sample.
  rewrite !E by lia. reflexivity.
Qed.

Lemma frac_range v : 0 <= v - inject_Z (Qfloor v) < 1.
Proof.
  pose proof (Qfloor_le v). pose proof (Qlt_floor v) as L. rewrite inject_Z_plus in L. change (inject_Z 1) with 1 in L. lra.
Qed.

Lemma mix_range lo hi t a b : 0 <= t -> t <= 1 -> lo <= a -> a <= hi -> lo <= b -> b <= hi -> lo <= a * (1 - t) + b * t /\ a * (1 - t) + b * t <= hi.
Proof. intros. split; nra. Qed.

Lemma interp_range lo hi x y a b c d :
  0 <= x <= 1 -> 0 <= y <= 1 -> lo <= a <= hi -> lo <= b <= hi -> lo <= c <= hi -> lo <= d <= hi -> lo <= interp x y a b c d <= hi.
Proof.
  intros [X0 X1] [Y0 Y1] [A0 A1] [B0 B1] [C0 C1] [D0 D1]. unfold interp.
  destruct (mix_range lo hi y a b Y0 Y1 A0 A1 B0 B1) as [M0 M1].
  destruct (mix_range lo hi y c d Y0 Y1 C0 C1 D0 D1) as [N0 N1].
  apply mix_range; auto.
Qed.

Lemma sample_range img sh sw orow ocol ch lo hi :
  0 <= orow <= inject_Z (sh - 1) -> 0 <= ocol <= inject_Z (sw - 1) ->
  (forall r c, (0 <= r < sh)%Z -> (0 <= c < sw)%Z -> (lo <= img r c ch <= hi)%Z) ->
  (lo <= sample img orow ocol ch <= hi)%Z.
Proof.
  intros Hr Hc E. destruct (floor_range _ _ Hr), (floor_range _ _ Hc). unfold sample.
  assert (B : forall r c, (0 <= r < sh)%Z -> (0 <= c < sw)%Z -> inject_Z lo <= inject_Z (img r c ch) <= inject_Z hi).
  { intros r c H3 H4. specialize (E r c H3 H4). rewrite <- !Zle_Qle. lia. }
  match goal with |- context[Qfloor ?u] => assert (I : inject_Z lo <= u <= inject_Z hi) end.
  { pose proof (frac_range orow). pose proof (frac_range ocol). apply interp_range; try lra; apply B; lia. }
  destruct I as [I1 I2]. apply Qfloor_resp_le in I1. apply Qfloor_resp_le in I2. rewrite Qfloor_Z in I1, I2. lia.
Qed.

Lemma warp_img f g sh sw h w ch img img' ratio :
  (0 < sh)%Z -> (0 < sw)%Z ->
  (forall r c k, (0 <= r < sh)%Z -> (0 <= c < sw)%Z -> (0 <= k < ch)%Z -> img r c k = img' r c k) ->
  warp f g sh sw h w ch img ratio = warp f g sh sw h w ch img' ratio.
Proof.
  intros Hh Hw E. unfold warp.
  rewrite !flat_map_concat_map. f_equal. apply map_ext; intros row.
  rewrite !flat_map_concat_map. f_equal. apply map_ext; intros col.
  rewrite !flat_map_concat_map. f_equal. apply map_ext; intros crow.
  apply map_ext; intros ccol. f_equal. unfold warp_pixel. destruct (displacement _ _ _ _ _ _ _); auto. f_equal.
  apply map_ext_in. intros k Ik. rewrite in_zrange in Ik.
  apply (sample_inside img img' sh sw); auto using clamp_range.
Qed.

Lemma warp_range f g sh sw h w ch img ratio lo hi rc v :
  (0 < g)%Z -> (0 < sh)%Z -> (0 < sw)%Z ->
  (forall r c k, (0 <= r < sh)%Z -> (0 <= c < sw)%Z -> (0 <= k < ch)%Z -> (lo <= img r c k <= hi)%Z) ->
  In (rc, Pixel v) (warp f g sh sw h w ch img ratio) -> Forall (fun x => (lo <= x <= hi)%Z) v.
Proof.
  intros Hg Hh Hw E I. destruct rc as [r c]. apply warp_in in I; auto.
  destruct I as (row & col & crow & ccol & _ & _ & _ & _ & _ & _ & P). unfold warp_pixel in P.
  destruct (displacement _ _ _ _ _ _ _); try discriminate. inversion P; subst.
  apply Forall_forall. intros k Ik. apply in_map_iff in Ik. destruct Ik as (j & <- & Ij). rewrite in_zrange in Ij.
  apply (sample_range img sh sw); auto using clamp_range.
Qed.

Lemma warp_length f g sh sw h w ch img ratio rc v :
  (0 < g)%Z -> In (rc, Pixel v) (warp f g sh sw h w ch img ratio) -> length v = Z.to_nat ch.
Proof.
  intros Hg I. destruct rc as [r c]. apply warp_in in I; auto.
  destruct I as (row & col & crow & ccol & _ & _ & _ & _ & _ & _ & P). unfold warp_pixel in P.
  destruct (displacement _ _ _ _ _ _ _); try discriminate. inversion P; subst.
  rewrite map_length. unfold zrange. apply zseq_length.
Qed.

(* ------------------------------------------------------------------ exact displacements *)

(* a pixel whose displacement is known *)
Lemma pixel_at f g sh sw h w ch img ratio row col crow ccol ddx ddy u v :
  displacement f (inject_Z crow / inject_Z (extent g h row)) (inject_Z ccol / inject_Z (extent g w col)) row col (next g h row) (next g w col) = Delta ddx ddy ->
  inject_Z (col + ccol) + ddx * ratio == u -> inject_Z (row + crow) + ddy * ratio == v ->
  warp_pixel f g sh sw h w ch img ratio row col crow ccol = Pixel (map (sample img (clamp v sh) (clamp u sw)) (zrange 0 ch)).
Proof.
  intros D Hu Hv. unfold warp_pixel. rewrite D. f_equal. apply map_ext. intros k. apply sample_proper; auto; rewrite ?Hu, ?Hv; reflexivity.
Qed.

Lemma warp_still f g sh sw h w ch img r c v :
  (0 < g)%Z -> (h <= sh)%Z -> (w <= sw)%Z ->
  In ((r, c), Pixel v) (warp f g sh sw h w ch img 0) -> v = map (img r c) (zrange 0 ch).
Proof.
  intros Hg Hh Hw I. assert (B : In (r, c) (map fst (warp f g sh sw h w ch img 0))) by (apply in_map_iff; eexists; split; [ | eauto ]; auto).
  apply warp_covers in B; auto. destruct B as [Br Bc]. apply warp_in in I; auto.
  destruct I as (row & col & crow & ccol & _ & _ & _ & _ & -> & -> & P).
  destruct (displacement f (inject_Z crow / inject_Z (extent g h row)) (inject_Z ccol / inject_Z (extent g w col)) row col (next g h row) (next g w col)) as [| |ddx ddy] eqn:D;
    [ unfold warp_pixel in P; rewrite D in P; discriminate | unfold warp_pixel in P; rewrite D in P; discriminate | ].
  rewrite (pixel_at _ _ _ _ _ _ _ _ _ _ _ _ _ ddx ddy (inject_Z (col + ccol)) (inject_Z (row + crow))) in P by (auto; ring).
  inversion P; subst. apply map_ext. intros k. rewrite !clamp_int by lia. rewrite !nearest_in by lia. apply sample_int.
Qed.

(* ------------------------------------------------------------------ sums over control points *)

Lemma qsum_acc f l : forall a, fold_left (fun a p => a + f p) l a == a + qsum f l.
Proof.
  unfold qsum. induction l as [|p l IH]; intros a; cbn; [ ring | ]. rewrite (IH (a + f p)), (IH (0 + f p)). ring.
Qed.

Lemma qsum_cons f p l : qsum f (p :: l) == f p + qsum f l.
Proof. unfold qsum at 1. cbn. rewrite qsum_acc. ring. Qed.

Lemma qsum_ext f g l : (forall p, In p l -> f p == g p) -> qsum f l == qsum g l.
Proof.
  induction l as [|p l IH]; intros E; [ reflexivity | ].
  rewrite !qsum_cons, IH, (E p); [ reflexivity | left; auto | intros; apply E; right; auto ].
Qed.

Lemma qsum_lin a b c f g k l :
  qsum (fun p => a * f p + b * g p + c * k p) l == a * qsum f l + b * qsum g l + c * qsum k l.
Proof. induction l as [|p l IH]; [ unfold qsum; cbn; ring | ]. rewrite !qsum_cons, IH. ring. Qed.

Lemma qsum_nonneg f l : (forall p, In p l -> 0 <= f p) -> 0 <= qsum f l.
Proof.
  induction l as [|p l IH]; intros E; [ apply Qle_refl | ].
  rewrite qsum_cons. pose proof (E p (or_introl eq_refl)). assert (0 <= qsum f l) by (apply IH; intros; apply E; right; auto). lra.
Qed.

Lemma qsum_ge f l q : (forall p, In p l -> 0 <= f p) -> In q l -> f q <= qsum f l.
Proof.
  induction l as [|p l IH]; intros E I; [ destruct I | ].
  rewrite qsum_cons. pose proof (E p (or_introl eq_refl)).
  assert (E' : forall p, In p l -> 0 <= f p) by (intros; apply E; right; auto). pose proof (qsum_nonneg f l E').
  destruct I as [ -> | I ]; [ lra | specialize (IH E' I); lra ].
Qed.

(* ------------------------------------------------------------------ square roots *)

Lemma rel_prime_square a b : rel_prime a b -> rel_prime (a * a) (b * b).
Proof. intros H. apply rel_prime_mult; apply rel_prime_sym; apply rel_prime_mult; apply rel_prime_sym; auto. Qed.

Lemma Qred_rel q : rel_prime (Qnum (Qred q)) (Zpos (Qden (Qred q))).
Proof.
  destruct q as [n d]. unfold Qred. pose proof (Z.ggcd_gcd n (Zpos d)) as G. pose proof (Z.ggcd_correct_divisors n (Zpos d)) as D.
  destruct (Z.ggcd n (Zpos d)) as (k & a & b). cbn in *. destruct D as [Da Db].
  assert (Hk : (0 < k)%Z). { subst k. pose proof (Z.gcd_nonneg n (Zpos d)). assert (Z.gcd n (Zpos d) <> 0)%Z by (intros Z0; apply Z.gcd_eq_0_r in Z0; lia). lia. }
  assert (Hb : (0 < b)%Z) by nia. rewrite Z2Pos.id by auto.
  apply Zgcd_1_rel_prime. rewrite Da, Db in G. rewrite Z.gcd_mul_mono_l_nonneg in G by lia. nia.
Qed.

Lemma Qred_prime n d : rel_prime n (Zpos d) -> Qred (n # d) = (n # d).
Proof.
  intros R. apply Zgcd_1_rel_prime in R. unfold Qred.
  pose proof (Z.ggcd_gcd n (Zpos d)) as G. pose proof (Z.ggcd_correct_divisors n (Zpos d)) as D.
  destruct (Z.ggcd n (Zpos d)) as (k & a & b). cbn in *. destruct D as [Da Db]. rewrite R in G. subst k.
  rewrite Z.mul_1_l in Da, Db. subst a. rewrite <- Db. reflexivity.
Qed.

Lemma qsqrt_square q v : 0 <= v -> q == v * v -> qsqrt q == v.
Proof.
  intros Hv E. rewrite <- (Qred_correct v) in Hv, E. rewrite <- (Qred_correct v) at 1. pose proof (Qred_rel v) as R.
  destruct (Qred v) as [n d]. cbn [Qnum Qden] in *. unfold qsqrt.
  rewrite (Qred_complete _ _ E). change ((n # d) * (n # d)) with ((n * n) # (d * d)).
  rewrite Qred_prime by (rewrite Pos2Z.inj_mul; apply rel_prime_square; auto). cbn [Qnum Qden].
  assert (0 <= n)%Z by (unfold Qle in Hv; cbn in Hv; lia).
  assert (D : Pos.sqrt (d * d) = d).
  { apply Pos2Z.inj. rewrite Pos2Z.inj_sqrt, Pos2Z.inj_mul, Z.sqrt_square by lia. reflexivity. }
  rewrite Z.sqrt_square, D by auto. reflexivity.
Qed.

(* ------------------------------------------------------------------ plane motions *)

Section Motion.
  Context (pts : list control) (t : motion) (F : follows t pts) (Two : two_points pts).
  Context (x y : Q) (Off : forall p, In p pts -> ~ (x == dx p /\ y == dy p)).
  Notation w := (weight x y).

  Lemma square_pos u v : ~ (u == 0 /\ v == 0) -> 0 < u * u + v * v.
  Proof.
    intros N. destruct (Qlt_le_dec 0 (u * u + v * v)) as [L|L]; auto. exfalso. apply N.
    assert (Hu : u * u == 0) by nra. assert (Hv : v * v == 0) by nra.
    apply Qmult_integral in Hu. apply Qmult_integral in Hv. tauto.
  Qed.

  Lemma square_nonneg u v : 0 <= u * u + v * v.
  Proof. nra. Qed.

  Lemma weight_pos p : In p pts -> 0 < w p.
  Proof.
    intros I. unfold weight.
    assert (P : 0 < (x - dx p) * (x - dx p) + (y - dy p) * (y - dy p)).
    { apply square_pos. intros [A B]. apply (Off p I). split; lra. }
    unfold Qdiv. rewrite Qmult_1_l. apply Qinv_lt_0_compat; auto.
  Qed.

  Lemma sum_pos : 0 < qsum w pts.
  Proof.
    destruct Two as (p & q & Ip & _). pose proof (weight_pos p Ip).
    pose proof (qsum_ge w pts p (fun p I => Qlt_le_weak _ _ (weight_pos p I)) Ip). lra.
  Qed.

  Definition cen (f : control -> Q) : Q := 1 / qsum w pts * qsum (fun p => w p * f p) pts.
  Notation wdx := (cen dx).
  Notation wdy := (cen dy).
  Notation wsx := (cen sx).
  Notation wsy := (cen sy).

  Lemma centred f : qsum (fun p => w p * (f p - cen f)) pts == 0.
  Proof.
    pose proof sum_pos as P.
    rewrite (qsum_ext _ (fun p => 1 * (w p * f p) + - cen f * w p + 0 * w p)) by (intros; ring).
    rewrite qsum_lin. unfold cen. field. lra.
  Qed.

  Lemma cen_sx : wsx == ma t * wdx - mb t * wdy + mtx t.
  Proof.
    pose proof sum_pos as P. unfold cen.
    rewrite (qsum_ext (fun p => w p * sx p) (fun p => ma t * (w p * dx p) + - mb t * (w p * dy p) + mtx t * w p)).
    - rewrite qsum_lin. field. lra.
    - intros p I. destruct (F p I) as [-> _]. unfold move_x. ring.
  Qed.

  Lemma cen_sy : wsy == mb t * wdx + ma t * wdy + mty t.
  Proof.
    pose proof sum_pos as P. unfold cen.
    rewrite (qsum_ext (fun p => w p * sy p) (fun p => mb t * (w p * dx p) + ma t * (w p * dy p) + mty t * w p)).
    - rewrite qsum_lin. field. lra.
    - intros p I. destruct (F p I) as [_ ->]. unfold move_y. ring.
  Qed.

  Definition spread : Q := qsum (fun p => w p * ((dx p - wdx) * (dx p - wdx) + (dy p - wdy) * (dy p - wdy))) pts.

  Lemma spread_pos : 0 < spread.
  Proof.
    assert (N : forall p, In p pts -> 0 <= w p * ((dx p - wdx) * (dx p - wdx) + (dy p - wdy) * (dy p - wdy))).
    { intros p I. pose proof (weight_pos p I). apply Qmult_le_0_compat; [ apply Qlt_le_weak; auto | apply square_nonneg ]. }
    assert (G : forall p, In p pts -> ~ (dx p == wdx /\ dy p == wdy) -> 0 < spread).
    { intros p I D. pose proof (qsum_ge _ _ p N I) as Ge. cbn beta in Ge. fold spread in Ge.
      assert (0 < w p * ((dx p - wdx) * (dx p - wdx) + (dy p - wdy) * (dy p - wdy))).
      { apply Qmult_lt_0_compat; [ apply weight_pos; auto | apply square_pos; intros [A B]; apply D; split; lra ]. }
      lra. }
    destruct Two as (p & q & Ip & Iq & D).
    destruct (Qeq_dec (dx p) wdx) as [E1|E1], (Qeq_dec (dy p) wdy) as [E2|E2]; try (apply (G p Ip); tauto).
    apply (G q Iq). intros [E3 E4]. apply D. split; [ rewrite E1, E3 | rewrite E2, E4 ]; reflexivity.
  Qed.

  Lemma sx_at p : In p pts -> sx p == wsx + (ma t * (dx p - wdx) - mb t * (dy p - wdy)).
  Proof. intros I. rewrite cen_sx. destruct (F p I) as [-> _]. unfold move_x. ring. Qed.

  Lemma sy_at p : In p pts -> sy p == wsy + (mb t * (dx p - wdx) + ma t * (dy p - wdy)).
  Proof. intros I. rewrite cen_sy. destruct (F p I) as [_ ->]. unfold move_y. ring. Qed.

  Lemma rigid_miu : ma t * ma t + mb t * mb t == 1 ->
    qsqrt (qsum (fun p => w p * ((sx p - wsx) * (dx p - wdx) + (sy p - wsy) * (dy p - wdy))) pts
           * qsum (fun p => w p * ((sx p - wsx) * (dx p - wdx) + (sy p - wsy) * (dy p - wdy))) pts
         + qsum (fun p => w p * ((sx p - wsx) * - (dy p - wdy) + (sy p - wsy) * (dx p - wdx))) pts
           * qsum (fun p => w p * ((sx p - wsx) * - (dy p - wdy) + (sy p - wsy) * (dx p - wdx))) pts) == spread.
  Proof.
    intros H. apply qsqrt_square; [ pose proof spread_pos; lra | ].
    assert (E1 : qsum (fun p => w p * ((sx p - wsx) * (dx p - wdx) + (sy p - wsy) * (dy p - wdy))) pts == ma t * spread).
    { unfold spread. rewrite (qsum_ext _ (fun p => ma t * (w p * ((dx p - wdx) * (dx p - wdx) + (dy p - wdy) * (dy p - wdy))) + 0 * w p + 0 * w p)).
      - rewrite qsum_lin. ring.
      - intros p I. rewrite (sx_at p I), (sy_at p I). ring. }
    assert (E2 : qsum (fun p => w p * ((sx p - wsx) * - (dy p - wdy) + (sy p - wsy) * (dx p - wdx))) pts == mb t * spread).
    { unfold spread. rewrite (qsum_ext _ (fun p => mb t * (w p * ((dx p - wdx) * (dx p - wdx) + (dy p - wdy) * (dy p - wdy))) + 0 * w p + 0 * w p)).
      - rewrite qsum_lin. ring.
      - intros p I. rewrite (sx_at p I), (sy_at p I). ring. }
    rewrite E1, E2. setoid_replace (ma t * spread * (ma t * spread) + mb t * spread * (mb t * spread)) with ((ma t * ma t + mb t * mb t) * (spread * spread)) by ring.
    rewrite H. ring.
  Qed.

  Lemma moved_sum_x miu : miu == spread ->
    qsum (fun p => (((dx p - wdx) * (x - wdx) + (dy p - wdy) * (y - wdy)) * sx p - (- (dy p - wdy) * (x - wdx) + (dx p - wdx) * (y - wdy)) * sy p) * (w p / miu)) pts + wsx
    == move_x t x y.
  Proof.
    intros E. pose proof spread_pos as P. assert (~ miu == 0) by (rewrite E; lra).
    rewrite (qsum_ext _ (fun p =>
      ((wsx * (x - wdx) - wsy * (y - wdy)) / miu) * (w p * (dx p - wdx)) +
      ((wsx * (y - wdy) + wsy * (x - wdx)) / miu) * (w p * (dy p - wdy)) +
      ((ma t * (x - wdx) - mb t * (y - wdy)) / miu) * (w p * ((dx p - wdx) * (dx p - wdx) + (dy p - wdy) * (dy p - wdy))))).
    - rewrite qsum_lin, !centred. fold spread. rewrite <- E. rewrite cen_sx. unfold move_x. field. auto.
    - intros p I. rewrite (sx_at p I), (sy_at p I). field. auto.
  Qed.

  Lemma moved_sum_y miu : miu == spread ->
    qsum (fun p => (- ((dx p - wdx) * - (y - wdy) + (dy p - wdy) * (x - wdx)) * sx p + (- (dy p - wdy) * - (y - wdy) + (dx p - wdx) * (x - wdx)) * sy p) * (w p / miu)) pts + wsy
    == move_y t x y.
  Proof.
    intros E. pose proof spread_pos as P. assert (~ miu == 0) by (rewrite E; lra).
    rewrite (qsum_ext _ (fun p =>
      ((wsx * (y - wdy) + wsy * (x - wdx)) / miu) * (w p * (dx p - wdx)) +
      ((wsy * (y - wdy) - wsx * (x - wdx)) / miu) * (w p * (dy p - wdy)) +
      ((mb t * (x - wdx) + ma t * (y - wdy)) / miu) * (w p * ((dx p - wdx) * (dx p - wdx) + (dy p - wdy) * (dy p - wdy))))).
    - rewrite qsum_lin, !centred. fold spread. rewrite <- E. rewrite cen_sy. unfold move_y. field. auto.
    - intros p I. rewrite (sx_at p I), (sy_at p I). field. auto.
  Qed.
End Motion.

Lemma moved_motion m pts t x y : follows t pts -> two_points pts -> fits m t ->
  exists u v, moved m pts x y = Some (u, v) /\ u == move_x t x y /\ v == move_y t x y.
Proof.
  intros F Two Fit. unfold moved. destruct (find _ pts) as [p|] eqn:Fd.
  - apply find_some in Fd. destruct Fd as [I E]. apply andb_true_iff in E. destruct E as [E1 E2].
    apply Qeq_bool_iff in E1. apply Qeq_bool_iff in E2. destruct (F p I) as [S1 S2].
    exists (sx p), (sy p). split; [ reflexivity | ]. rewrite S1, S2. unfold move_x, move_y. rewrite E1, E2. split; reflexivity.
  - assert (Off : forall p, In p pts -> ~ (x == dx p /\ y == dy p)).
    { intros p I [E1 E2]. apply (find_none _ _ Fd) in I. rewrite (proj2 (Qeq_bool_iff _ _) E1), (proj2 (Qeq_bool_iff _ _) E2) in I. discriminate. }
    set (miu := match m with RIGID => _ | SIMILARITY => _ end).
    assert (M : miu == spread pts x y).
    { subst miu. destruct m; [ apply (rigid_miu pts t F Two x y Off Fit) | reflexivity ]. }
    pose proof (spread_pos pts Two x y Off) as P.
    destruct (Qeq_bool miu 0) eqn:Z0; [ apply Qeq_bool_iff in Z0; lra | ].
    eexists; eexists. split; [ reflexivity | ]. split.
    + apply (moved_sum_x pts t F Two x y Off miu M).
    + apply (moved_sum_y pts t F Two x y Off miu M).
Qed.

Lemma two_length pts : two_points pts -> (2 <= length pts)%nat.
Proof.
  intros (p & q & Ip & Iq & D). destruct pts as [|a [|b l]]; [ destruct Ip | | cbn; lia ].
  destruct Ip as [ <- | [] ], Iq as [ <- | [] ]. exfalso. apply D. split; reflexivity.
Qed.

Lemma node_motion m pts t g h w r c : follows t pts -> two_points pts -> fits m t ->
  (0 < g)%Z -> (0 < h)%Z -> (0 < w)%Z -> node g h r -> node g w c ->
  exists u v, computeTransform m pts g h w r c = Delta u v /\
    u == move_x t (inject_Z c) (inject_Z r) - inject_Z c /\ v == move_y t (inject_Z c) (inject_Z r) - inject_Z r.
Proof.
  intros F Two Fit Hg Hh Hw Nr Nc. rewrite transform_node; auto using two_length. unfold entry.
  destruct (moved_motion m pts t (inject_Z c) (inject_Z r) F Two Fit) as (u & v & -> & Eu & Ev).
  eexists; eexists. split; [ reflexivity | ]. rewrite Eu, Ev. split; reflexivity.
Qed.

(* the displacement inside a cell whose corners follow a motion *)
Lemma displacement_motion f t x y row col nrow ncol px py :
  (forall r c, (r = row \/ r = nrow) -> (c = col \/ c = ncol) -> exists u v, f r c = Delta u v /\
    u == move_x t (inject_Z c) (inject_Z r) - inject_Z c /\ v == move_y t (inject_Z c) (inject_Z r) - inject_Z r) ->
  inject_Z row + x * (inject_Z nrow - inject_Z row) == py -> inject_Z col + y * (inject_Z ncol - inject_Z col) == px ->
  exists u v, displacement f x y row col nrow ncol = Delta u v /\ u == move_x t px py - px /\ v == move_y t px py - py.
Proof.
  intros C Hy Hx. unfold displacement.
  destruct (C row col (or_introl eq_refl) (or_introl eq_refl)) as (a1 & a2 & -> & A1 & A2).
  destruct (C row ncol (or_introl eq_refl) (or_intror eq_refl)) as (b1 & b2 & -> & B1 & B2).
  destruct (C nrow col (or_intror eq_refl) (or_introl eq_refl)) as (c1 & c2 & -> & C1 & C2).
  destruct (C nrow ncol (or_intror eq_refl) (or_intror eq_refl)) as (d1 & d2 & -> & D1 & D2).
  eexists; eexists. split; [ reflexivity | ]. rewrite A1, A2, B1, B2, C1, C2, D1, D2. unfold interp, move_x, move_y. rewrite <- Hx, <- Hy. split; ring.
Qed.

Lemma inner_cell g size row off : (0 < g)%Z -> (0 <= row < size)%Z -> (g | row)%Z -> (0 <= off < extent g size row)%Z ->
  inner g size (row + off) ->
  inject_Z row + inject_Z off / inject_Z (extent g size row) * (inject_Z (next g size row) - inject_Z row) == inject_Z (row + off).
Proof.
  intros Hg Hr D Ho I. pose proof (extent_le g size row Hg Hr) as X. rewrite inject_Z_plus.
  destruct (Z.eq_dec off 0) as [ -> |N].
  - change (inject_Z 0) with 0. unfold Qdiv. ring.
  - assert (Hn : (row + g <= size - 1)%Z).
    { destruct I as [I|I].
      - exfalso. pose proof (divide_ge g row (row + off) Hg D I). lia.
      - assert (G : ((size - 1) / g * g <= size - 1)%Z) by (pose proof (Z.mul_div_le (size - 1) g Hg); lia).
        assert ((g | (size - 1) / g * g)%Z) as D2 by apply Z.divide_factor_r.
        pose proof (divide_ge g row _ Hg D D2). lia. }
    rewrite next_min by auto. rewrite Z.min_l by lia. rewrite X, Z.min_l by lia. rewrite inject_Z_plus. field.
    intros Z0. assert (E0 : inject_Z g == inject_Z 0) by exact Z0. apply (proj1 (inject_Z_injective _ _)) in E0. lia.
Qed.

Lemma warp_motion m pts t g sh sw h w ch img ratio r c o : follows t pts -> two_points pts -> fits m t -> (0 < g)%Z ->
  inner g h r -> inner g w c ->
  In ((r, c), o) (warp (computeTransform m pts g h w) g sh sw h w ch img ratio) ->
  o = Pixel (map (sample img
    (clamp (inject_Z r + (move_y t (inject_Z c) (inject_Z r) - inject_Z r) * ratio) sh)
    (clamp (inject_Z c + (move_x t (inject_Z c) (inject_Z r) - inject_Z c) * ratio) sw)) (zrange 0 ch)).
Proof.
  intros F Two Fit Hg Ir Ic I. apply warp_in in I; auto.
  destruct I as (row & col & crow & ccol & [Hr Dr] & [Hc Dc] & Hcr & Hcc & -> & -> & ->).
  destruct (displacement_motion (computeTransform m pts g h w) t (inject_Z crow / inject_Z (extent g h row)) (inject_Z ccol / inject_Z (extent g w col))
    row col (next g h row) (next g w col) (inject_Z (col + ccol)) (inject_Z (row + crow))) as (u & v & D & Eu & Ev).
  - intros r' c' Er Ec. apply node_motion; auto; try lia.
    + destruct Er as [ -> | -> ]; [ apply node_self; auto | apply next_node; auto ].
    + destruct Ec as [ -> | -> ]; [ apply node_self; auto | apply next_node; auto ].
  - apply inner_cell; auto.
  - apply inner_cell; auto.
  - rewrite (pixel_at _ _ _ _ _ _ _ _ _ _ _ _ _ u v _ _ D (Qeq_refl _) (Qeq_refl _)). f_equal. apply map_ext. intros k.
    apply sample_proper; auto; rewrite ?Eu, ?Ev; reflexivity.
Qed.

Lemma warp_translation m pts tx ty g sh sw h w ch img ratio r c o :
  follows (translation tx ty) pts -> two_points pts -> (0 < g)%Z ->
  In ((r, c), o) (warp (computeTransform m pts g h w) g sh sw h w ch img ratio) ->
  o = Pixel (map (sample img (clamp (inject_Z r + inject_Z ty * ratio) sh) (clamp (inject_Z c + inject_Z tx * ratio) sw)) (zrange 0 ch)).
Proof.
  intros F Two Hg I. apply warp_in in I; auto.
  destruct I as (row & col & crow & ccol & [Hr Dr] & [Hc Dc] & Hcr & Hcc & -> & -> & ->).
  assert (Fit : fits m (translation tx ty)) by (destruct m; cbn; [ ring | auto ]).
  destruct (displacement_motion (computeTransform m pts g h w) (translation tx ty) (inject_Z crow / inject_Z (extent g h row)) (inject_Z ccol / inject_Z (extent g w col))
    row col (next g h row) (next g w col)
    (inject_Z col + inject_Z ccol / inject_Z (extent g w col) * (inject_Z (next g w col) - inject_Z col))
    (inject_Z row + inject_Z crow / inject_Z (extent g h row) * (inject_Z (next g h row) - inject_Z row))) as (u & v & D & Eu & Ev); [ | apply Qeq_refl | apply Qeq_refl | ].
  - intros r' c' Er Ec. apply node_motion; auto; try lia.
    + destruct Er as [ -> | -> ]; [ apply node_self; auto | apply next_node; auto ].
    + destruct Ec as [ -> | -> ]; [ apply node_self; auto | apply next_node; auto ].
  - rewrite (pixel_at _ _ _ _ _ _ _ _ _ _ _ _ _ u v _ _ D (Qeq_refl _) (Qeq_refl _)). f_equal. apply map_ext. intros k.
    apply sample_proper; auto.
    + rewrite Ev. unfold move_y. cbn [translation ma mb mtx mty]. apply clamp_proper; auto. ring.
    + rewrite Eu. unfold move_x. cbn [translation ma mb mtx mty]. apply clamp_proper; auto. ring.
Qed.

Lemma warp_shift m pts tx ty g sh sw h w ch img r c o :
  follows (translation tx ty) pts -> two_points pts -> (0 < g)%Z -> (0 < sh)%Z -> (0 < sw)%Z ->
  In ((r, c), o) (warp (computeTransform m pts g h w) g sh sw h w ch img 1) ->
  o = Pixel (map (img (nearest (r + ty) sh) (nearest (c + tx) sw)) (zrange 0 ch)).
Proof.
  intros F Two Hg Hh Hw I. rewrite (warp_translation m pts tx ty g sh sw h w ch img 1 r c o F Two Hg I). f_equal. apply map_ext. intros k.
  transitivity (sample img (inject_Z (nearest (r + ty) sh)) (inject_Z (nearest (c + tx) sw)) k); [ | apply sample_int ].
  apply sample_proper; auto; rewrite Qmult_1_r, <- inject_Z_plus; apply clamp_int; auto.
Qed.

Lemma warp_identity m pts g sh sw h w ch img ratio r c o :
  (forall p, In p pts -> sx p == dx p /\ sy p == dy p) -> two_points pts -> (0 < g)%Z -> (h <= sh)%Z -> (w <= sw)%Z ->
  In ((r, c), o) (warp (computeTransform m pts g h w) g sh sw h w ch img ratio) ->
  o = Pixel (map (img r c) (zrange 0 ch)).
Proof.
  intros F Two Hg Hh Hw I.
  assert (B : In (r, c) (map fst (warp (computeTransform m pts g h w) g sh sw h w ch img ratio))) by (apply in_map_iff; eexists; split; [ | eauto ]; auto).
  apply warp_covers in B; auto.
  rewrite (warp_translation m pts 0 0 g sh sw h w ch img ratio r c o); auto.
  - f_equal. apply map_ext. intros k. transitivity (sample img (inject_Z (nearest r sh)) (inject_Z (nearest c sw)) k).
    + apply sample_proper; auto; change (inject_Z 0) with 0; rewrite Qmult_0_l, Qplus_0_r; apply clamp_int; lia.
    + rewrite !nearest_in by lia. apply sample_int.
  - intros p Ip. destruct (F p Ip) as [E1 E2]. unfold move_x, move_y. cbn. rewrite E1, E2. split; ring.
Qed.

Lemma warp_control m pts g sh sw h w ch img r c p v : (0 < g)%Z -> (2 <= length pts)%nat ->
  In p pts -> dx p == inject_Z c -> dy p == inject_Z r ->
  (forall q, In q pts -> dx q == dx p -> dy q == dy p -> sx q == sx p /\ sy q == sy p) ->
  (g | r)%Z -> (g | c)%Z ->
  In ((r, c), Pixel v) (warp (computeTransform m pts g h w) g sh sw h w ch img 1) ->
  v = map (sample img (clamp (sy p) sh) (clamp (sx p) sw)) (zrange 0 ch).
Proof.
  intros Hg L Ip Ex Ey U Dr Dc I. apply warp_in in I; auto.
  destruct I as (row & col & crow & ccol & [Hr Drow] & [Hc Dcol] & Hcr & Hcc & -> & -> & P).
  rewrite extent_le in Hcr, Hcc by auto.
  assert (crow = 0%Z). { destruct (Z.eq_dec crow 0); auto. pose proof (divide_ge g row (row + crow) Hg Drow Dr). lia. }
  assert (ccol = 0%Z). { destruct (Z.eq_dec ccol 0); auto. pose proof (divide_ge g col (col + ccol) Hg Dcol Dc). lia. }
  subst crow ccol. rewrite Z.add_0_r in *.
  assert (E : exists u v, computeTransform m pts g h w row col = Delta u v /\ u == sx p - inject_Z col /\ v == sy p - inject_Z row).
  { rewrite transform_node by (auto; try lia; apply node_self; auto). unfold entry, moved.
    destruct (find _ pts) as [q|] eqn:Fd.
    - apply find_some in Fd. destruct Fd as [Iq E]. apply andb_true_iff in E. destruct E as [E1 E2].
      apply Qeq_bool_iff in E1. apply Qeq_bool_iff in E2. destruct (U q Iq) as [S1 S2]; [ rewrite Ex, E1; reflexivity | rewrite Ey, E2; reflexivity | ].
      eexists; eexists; split; [ reflexivity | ]. rewrite S1, S2. split; reflexivity.
    - apply (find_none _ _ Fd) in Ip. symmetry in Ex, Ey. rewrite (proj2 (Qeq_bool_iff _ _) Ex), (proj2 (Qeq_bool_iff _ _) Ey) in Ip. discriminate. }
  destruct E as (u0 & v0 & E & Eu & Ev).
  destruct (displacement (computeTransform m pts g h w) (inject_Z 0 / inject_Z (extent g h row)) (inject_Z 0 / inject_Z (extent g w col)) row col (next g h row) (next g w col)) as [| |ddx ddy] eqn:D;
    [ unfold warp_pixel in P; rewrite D in P; discriminate | unfold warp_pixel in P; rewrite D in P; discriminate | ].
  rewrite (pixel_at _ _ _ _ _ _ _ _ _ _ _ _ _ ddx ddy _ _ D (Qeq_refl _) (Qeq_refl _)) in P. inversion P; subst v.
  unfold displacement in D. rewrite E in D.
  assert (Hd : ddx == u0 /\ ddy == v0).
  { destruct (computeTransform m pts g h w row (next g w col)), (computeTransform m pts g h w (next g h row) col),
      (computeTransform m pts g h w (next g h row) (next g w col)); try discriminate. inversion D; subst.
    unfold interp. change (inject_Z 0) with 0. unfold Qdiv. split; ring. }
  destruct Hd as [Hd1 Hd2]. apply map_ext. intros k. apply sample_proper; auto.
  - rewrite Z.add_0_r, Hd2, Ev. apply clamp_proper; auto. ring.
  - rewrite Z.add_0_r, Hd1, Eu. apply clamp_proper; auto. ring.
Qed.
