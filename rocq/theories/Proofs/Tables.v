From Coq Require Import ZArith QArith Qround Qabs List Lia Lqa Psatz.
From Verif Require Import Model.Tables Spec.Tables.
Import ListNotations.

Open Scope Z_scope.
Lemma alloc_bytes_spec n elem align : 1 <= elem -> 1 <= align < 2^64 -> 0 <= n <= max_size elem align ->
  let s := alloc_bytes n elem align in
  s mod align = 0 /\ n * elem <= s < n * elem + align /\ s < 2^64.
Proof.
  intros He Ha Hn. unfold max_size in Hn.
  assert (B : n * elem <= 2^64 - 1 - align).
  { assert (elem * ((2^64 - 1 - align) / elem) <= 2^64 - 1 - align) by (apply Z.mul_div_le; lia). nia. }
  assert (B0 : 0 <= n * elem) by nia.
  cbn zeta. unfold alloc_bytes, wrap64. rewrite (Z.mod_small (n * elem)) by lia.
  pose proof (Z.mod_pos_bound (n * elem) align ltac:(lia)) as M.
  destruct (Z.eqb_spec (n * elem mod align) 0) as [E|E].
  - repeat split; lia.
  - rewrite (Z.mod_small (n * elem + (align - n * elem mod align))) by lia. repeat split; try lia.
    pose proof (Z.div_mod (n * elem) align ltac:(lia)) as D.
    replace (n * elem + (align - n * elem mod align)) with ((n * elem / align + 1) * align) by lia.
    apply Z.mod_mul. lia.
Qed.

(** minimality: no smaller multiple of the alignment would do *)
Lemma alloc_bytes_least n elem align m : 1 <= elem -> 1 <= align < 2^64 -> 0 <= n <= max_size elem align ->
  m mod align = 0 -> n * elem <= m -> alloc_bytes n elem align <= m.
Proof.
  intros He Ha Hn Hm Hle. destruct (alloc_bytes_spec n elem align He Ha Hn) as (A & B & C).
  set (s := alloc_bytes n elem align) in *.
  destruct (Z.le_gt_cases s m) as [|G]; auto. exfalso.
  pose proof (Z.div_mod s align ltac:(lia)). pose proof (Z.div_mod m align ltac:(lia)).
  assert (m / align < s / align) by nia. assert (align * (m / align + 1) <= align * (s / align)) by nia. lia.
Qed.

(** beyond max_size the request can silently wrap to something too small *)
Lemma alloc_bytes_wraps elem align : elem = 2 -> align = 16 ->
  exists n, max_size elem align < n < 2^64 /\ alloc_bytes n elem align < n * elem.
Proof. intros -> ->. exists (2^63). vm_compute. auto. Qed.

Open Scope Q_scope.
Lemma qtrunc_nonneg x : 0 <= x -> (0 <= qtrunc x)%Z /\ inject_Z (qtrunc x) <= x /\ x < inject_Z (qtrunc x + 1).
Proof.
  intro H. unfold qtrunc. rewrite (proj2 (Qle_bool_iff 0 x) H). repeat split.
  - change 0%Z with (Qfloor 0). now apply Qfloor_resp_le.
  - apply Qfloor_le.
  - apply Qlt_floor.
Qed.
Lemma qtrunc_neg x : x < 0 -> (qtrunc x <= 0)%Z /\ x <= inject_Z (qtrunc x) /\ inject_Z (qtrunc x - 1) < x.
Proof.
  intro H. unfold qtrunc. assert (E : Qle_bool 0 x = false).
  { destruct (Qle_bool 0 x) eqn:E; auto. apply Qle_bool_iff in E. lra. }
  rewrite E. repeat split.
  - change 0%Z with (Qceiling 0). apply Qceiling_resp_le. lra.
  - apply Qle_ceiling.
  - apply Qceiling_lt.
Qed.
Lemma inj_lt a b : inject_Z a < inject_Z b -> (a < b)%Z. Proof. intro H. now rewrite <- Zlt_Qlt in H. Qed.
Lemma inj_le a b : inject_Z a <= inject_Z b -> (a <= b)%Z. Proof. intro H. now rewrite <- Zle_Qle in H. Qed.
Lemma inj_le' a b : (a <= b)%Z -> inject_Z a <= inject_Z b. Proof. intro H. now rewrite <- Zle_Qle. Qed.
Lemma inj_lt' a b : (a < b)%Z -> inject_Z a < inject_Z b. Proof. intro H. now rewrite <- Zlt_Qlt. Qed.

Lemma inj_pred k : inject_Z (k - 1) == inject_Z k - 1.
Proof. unfold Z.sub. rewrite inject_Z_plus. reflexivity. Qed.
Lemma inj_succ k : inject_Z (k + 1) == inject_Z k + 1.
Proof. rewrite inject_Z_plus. reflexivity. Qed.

Lemma qround_near x : Qabs (x - inject_Z (qround x)) <= 1#2.
Proof.
  apply Qabs_Qle_condition. unfold qround. destruct (Qle_bool 0 x) eqn:E.
  - pose proof (Qfloor_le (x + (1#2))). pose proof (Qlt_floor (x + (1#2))). rewrite inj_succ in H0.
    split; lra.
  - pose proof (Qle_ceiling (x - (1#2))). pose proof (Qceiling_lt (x - (1#2))).
    rewrite inj_pred in H0. split; lra.
Qed.

Section Lut.
Context {T : Type} (f : Q -> T) (F : respects_eq f) (nBins nSafety : nat) (Hb : (2 <= nBins)%nat) (a b : Q) (Hab : ~ a == b).
Let mn := qmin a b.
Let mx := qmax a b.
Let B := Z.of_nat nBins.
Let S := Z.of_nat nSafety.

Lemma mn_lt_mx : mn < mx.
Proof.
  unfold mn, mx, qmin, qmax. destruct (Qle_bool a b) eqn:E.
  - apply Qle_bool_iff in E. destruct (Qlt_le_dec a b); auto. exfalso. apply Hab. lra.
  - destruct (Qlt_le_dec b a) as [|Q0]; auto. apply Qle_bool_iff in Q0. congruence.
Qed.

Lemma b1_pos : 0 < inject_Z (B - 1).
Proof. change 0 with (inject_Z 0). apply inj_lt'. unfold B. lia. Qed.

Definition l0 (cast : Q -> Q) : lut T :=
  Lut (map (fun n => if Nat.leb n nSafety then f mn
    else if Nat.ltb n (nBins + nSafety - 1) then f (mn + cast (inject_Z (Z.of_nat (n - nSafety)) * ((mx - mn) / inject_Z (B - 1))))
    else f mx) (seq 0 (nBins + nSafety * 2))) mn mx (cast ((mx + mn) / (2#1))) (inject_Z (B - 1) / (mx - mn)) ((mx - mn) / inject_Z (B - 1)) nBins nSafety.

Lemma init_ok cast : lut_init cast nBins nSafety a b f = Some (l0 cast).
Proof.
  unfold lut_init. assert (E : Qeq_bool a b = false).
  { destruct (Qeq_bool a b) eqn:E; auto. apply Qeq_bool_iff in E. contradiction. }
  rewrite E. reflexivity.
Qed.

(** table entries, by position relative to the low pointer, for any cast that is exact on the grid *)
Definition exact_on_grid (cast : Q -> Q) : Prop := forall k, (0 <= k < B)%Z -> cast (inject_Z k * gap mn mx B) == inject_Z k * gap mn mx B.

Lemma entry cast k : exact_on_grid cast ->
  peek (l_tab (l0 cast)) (S + k) =
  if (k <? - S)%Z then None else if (k <? B + S)%Z then Some (f (grid mn mx B (Z.max 0 (Z.min (B - 1) k)))) else None.
Proof.
  intro Ec. pose proof b1_pos as Bp. pose proof mn_lt_mx as Lt. unfold peek.
  assert (G0 : grid mn mx B 0 == mn) by (unfold grid; change (inject_Z 0) with 0; ring).
  assert (G1 : grid mn mx B (B - 1) == mx) by (unfold grid; field; lra).
  destruct (Z.ltb_spec k (- S)) as [Hk|Hk].
  { destruct (Z.ltb_spec (S + k) 0); [ reflexivity | lia ]. }
  destruct (Z.ltb_spec (S + k) 0); [ lia |]. cbn [l_tab l0].
  destruct (Z.ltb_spec k (B + S)) as [Hk2|Hk2].
  - set (i := Z.to_nat (S + k)). rewrite nth_error_map.
    assert (Hi : (i < nBins + nSafety * 2)%nat) by (unfold i, B, S in *; lia).
    rewrite (nth_error_nth' _ 0%nat) by now rewrite seq_length.
    rewrite seq_nth by auto. cbn [option_map Nat.add]. f_equal.
    destruct (Nat.leb_spec i nSafety).
    + apply F. replace (Z.max 0 (Z.min (B - 1) k)) with 0%Z by (unfold i, B, S in *; lia). now symmetry.
    + destruct (Nat.ltb_spec i (nBins + nSafety - 1)).
      * apply F. replace (Z.of_nat (i - nSafety)) with k by (unfold i, B, S in *; lia).
        replace (Z.max 0 (Z.min (B - 1) k)) with k by (unfold i, B, S in *; lia).
        unfold grid. fold (gap mn mx B). rewrite (Ec k) by (unfold i, B, S in *; lia). reflexivity.
      * apply F. replace (Z.max 0 (Z.min (B - 1) k)) with (B - 1)%Z by (unfold i, B, S in *; lia). now symmetry.
  - apply nth_error_None. rewrite map_length, seq_length. unfold B, S in *. lia.
Qed.

Lemma id_exact : exact_on_grid (fun q => q). Proof. intros k _. reflexivity. Qed.

Let L := l0 (fun q => q).
Let t (x : Q) := (x - mn) * (inject_Z (B - 1) / (mx - mn)).

Lemma t_grid x : x == mn + t x * gap mn mx B.
Proof. unfold t, gap. pose proof b1_pos. pose proof mn_lt_mx. field. split; lra. Qed.
Lemma gap_pos : 0 < gap mn mx B.
Proof. unfold gap. pose proof b1_pos. pose proof mn_lt_mx. apply Qlt_shift_div_l; lra. Qed.
Lemma t_le x y : x <= y <-> t x <= t y.
Proof. rewrite (t_grid x) at 1. rewrite (t_grid y) at 1. pose proof gap_pos. split; intro; nra. Qed.
Lemma t_lt x y : x < y <-> t x < t y.
Proof. rewrite (t_grid x) at 1. rewrite (t_grid y) at 1. pose proof gap_pos. split; intro; nra. Qed.
Lemma t_mn : t mn == 0. Proof. unfold t. ring. Qed.
Lemma t_mx : t mx == inject_Z (B - 1). Proof. unfold t. pose proof mn_lt_mx. field. lra. Qed.
Lemma t_of_grid k : t (grid mn mx B k) == inject_Z k.
Proof. unfold t, grid. pose proof b1_pos. pose proof mn_lt_mx. field. split; lra. Qed.
Lemma t_add x q : t (x + q * gap mn mx B) == t x + q.
Proof. unfold t, gap. pose proof b1_pos. pose proof mn_lt_mx. field. split; lra. Qed.

Lemma eval_in x : mn <= x <= mx ->
  exists k, (0 <= k <= B - 1)%Z /\ eval L x = Some (f (grid mn mx B k)) /\ grid mn mx B k <= x /\ x < grid mn mx B (k + 1).
Proof.
  intros [H1 H2]. apply t_le in H1, H2. rewrite t_mn in H1. rewrite t_mx in H2.
  destruct (qtrunc_nonneg (t x) H1) as (A1 & A2 & A3). exists (qtrunc (t x)).
  assert (A4 : (qtrunc (t x) <= B - 1)%Z) by (apply inj_le; lra).
  split; [ lia |]. split; [| split ].
  - unfold eval. change (low_off L) with S. change ((x - l_min L) * l_scale L) with (t x). unfold L. rewrite (entry _ _ id_exact).
    destruct (Z.ltb_spec (qtrunc (t x)) (- S)); [ unfold S in *; lia |].
    destruct (Z.ltb_spec (qtrunc (t x)) (B + S)); [| unfold S in *; lia ].
    do 2 f_equal. f_equal. lia.
  - apply t_le. now rewrite t_of_grid.
  - apply t_lt. now rewrite t_of_grid.
Qed.

(** exactly the queries less than nSafety+1 gaps outside the domain stay inside the buffer; they return the end values *)
Lemma eval_out x : x < mn \/ mx < x ->
  eval L x = if Qle_bool x (mn - inject_Z (S + 1) * gap mn mx B) then None
             else if Qle_bool (mx + inject_Z (S + 1) * gap mn mx B) x then None
             else Some (f (if Qle_bool x mn then mn else mx)).
Proof.
  intro Hx. unfold eval. change (low_off L) with S. change ((x - l_min L) * l_scale L) with (t x). unfold L. rewrite (entry _ _ id_exact).
  pose proof mn_lt_mx as Lt. pose proof b1_pos as Bp. pose proof gap_pos as Gp.
  assert (Sp : 0 < inject_Z (S + 1)) by (change 0 with (inject_Z 0); apply inj_lt'; unfold S; lia).
  assert (E1 : t (mn - inject_Z (S + 1) * gap mn mx B) == - inject_Z (S + 1)).
  { unfold t, gap. field. split; lra. }
  assert (E2 : t (mx + inject_Z (S + 1) * gap mn mx B) == inject_Z (B + S)).
  { rewrite t_add, t_mx, <- inject_Z_plus. replace (B - 1 + (S + 1))%Z with (B + S)%Z by lia. reflexivity. }
  assert (G0 : grid mn mx B 0 == mn) by (unfold grid; change (inject_Z 0) with 0; ring).
  assert (G1 : grid mn mx B (B - 1) == mx) by (unfold grid; field; lra).
  destruct Hx as [Hx|Hx].
  - assert (X2 : Qle_bool (mx + inject_Z (S + 1) * gap mn mx B) x = false).
    { destruct (Qle_bool (mx + inject_Z (S + 1) * gap mn mx B) x) eqn:E; auto. apply Qle_bool_iff in E. exfalso.
      assert (0 < inject_Z (S + 1) * gap mn mx B) by nra. lra. }
    rewrite X2. rewrite (proj2 (Qle_bool_iff x mn)) by lra.
    apply t_lt in Hx. rewrite t_mn in Hx. destruct (qtrunc_neg (t x) Hx) as (A1 & A2 & A3).
    destruct (Qle_bool x (mn - inject_Z (S + 1) * gap mn mx B)) eqn:X1.
    + apply Qle_bool_iff, t_le in X1. rewrite E1 in X1.
      assert (qtrunc (t x) - 1 < - (S + 1))%Z by (apply inj_lt; rewrite inject_Z_opp; lra).
      destruct (Z.ltb_spec (qtrunc (t x)) (- S)); [ reflexivity | lia ].
    + assert (X1' : ~ x <= mn - inject_Z (S + 1) * gap mn mx B) by (rewrite <- Qle_bool_iff; congruence).
      apply Qnot_le_lt, t_lt in X1'. rewrite E1 in X1'.
      assert (- (S + 1) < qtrunc (t x))%Z by (apply inj_lt; rewrite inject_Z_opp; lra).
      destruct (Z.ltb_spec (qtrunc (t x)) (- S)); [ lia |].
      destruct (Z.ltb_spec (qtrunc (t x)) (B + S)); [| unfold B, S in *; lia ].
      f_equal. apply F. replace (Z.max 0 (Z.min (B - 1) (qtrunc (t x)))) with 0%Z by (unfold B in *; lia). exact G0.
  - assert (X1 : Qle_bool x (mn - inject_Z (S + 1) * gap mn mx B) = false).
    { destruct (Qle_bool x (mn - inject_Z (S + 1) * gap mn mx B)) eqn:E; auto. apply Qle_bool_iff in E. exfalso.
      assert (0 < inject_Z (S + 1) * gap mn mx B) by nra. lra. }
    rewrite X1. assert (X3 : Qle_bool x mn = false).
    { destruct (Qle_bool x mn) eqn:E; auto. apply Qle_bool_iff in E. exfalso. lra. }
    rewrite X3. apply t_lt in Hx. rewrite t_mx in Hx.
    destruct (qtrunc_nonneg (t x)) as (A1 & A2 & A3); [ lra |].
    assert (Q : (B - 1 < qtrunc (t x) + 1)%Z) by (apply inj_lt; lra).
    destruct (Z.ltb_spec (qtrunc (t x)) (- S)); [ unfold S in *; lia |].
    destruct (Qle_bool (mx + inject_Z (S + 1) * gap mn mx B) x) eqn:X2.
    + apply Qle_bool_iff, t_le in X2. rewrite E2 in X2.
      assert (B + S < qtrunc (t x) + 1)%Z by (apply inj_lt; lra).
      destruct (Z.ltb_spec (qtrunc (t x)) (B + S)); [ lia | reflexivity ].
    + assert (X2' : ~ mx + inject_Z (S + 1) * gap mn mx B <= x) by (rewrite <- Qle_bool_iff; congruence).
      apply Qnot_le_lt, t_lt in X2'. rewrite E2 in X2'.
      assert (qtrunc (t x) < B + S)%Z by (apply inj_lt; lra).
      destruct (Z.ltb_spec (qtrunc (t x)) (B + S)); [| lia ].
      f_equal. apply F. replace (Z.max 0 (Z.min (B - 1) (qtrunc (t x)))) with (B - 1)%Z by (unfold B in *; lia). exact G1.
Qed.

Lemma eval_round_in x : mn <= x <= mx ->
  exists k, (0 <= k <= B - 1)%Z /\ eval_round L x = Some (f (grid mn mx B k)) /\ Qabs (x - grid mn mx B k) <= gap mn mx B / (2#1).
Proof.
  intros [H1 H2]. apply t_le in H1, H2. rewrite t_mn in H1. rewrite t_mx in H2.
  pose proof (qround_near (t x)) as N. apply Qabs_Qle_condition in N. destruct N as [N1 N2].
  set (k := qround (t x)) in *.
  assert (K0 : (0 <= k)%Z). { assert (-1 < k)%Z; [| lia ]. apply inj_lt. change (inject_Z (-1)) with (-(1)). lra. }
  assert (K1 : (k <= B - 1)%Z). { assert (k < B)%Z; [| lia ]. apply inj_lt. rewrite inj_pred in H2. lra. }
  exists k. split; [ lia |]. split.
  - unfold eval_round. change (low_off L) with S. change ((x - l_min L) * l_scale L) with (t x). fold k. unfold L. rewrite (entry _ _ id_exact).
    destruct (Z.ltb_spec k (- S)); [ unfold S in *; lia |].
    destruct (Z.ltb_spec k (B + S)); [| unfold S in *; lia ].
    do 2 f_equal. f_equal. lia.
  - apply Qabs_Qle_condition. assert (E : x - grid mn mx B k == (t x - inject_Z k) * gap mn mx B).
    { rewrite (t_grid x) at 1. unfold grid, gap. ring. }
    rewrite E. pose proof gap_pos. setoid_replace (gap mn mx B / (2#1)) with ((1#2) * gap mn mx B) by field.
    split; nra.
Qed.

(** mid-pointer lookup: always inside the buffer on the domain; position error in gaps *)
Lemma half_even : (nBins mod 2 = 0)%nat -> inject_Z (Z.of_nat (nBins / 2)) == inject_Z B * (1#2).
Proof.
  intro E. pose proof (Nat.div_mod nBins 2 ltac:(lia)) as D. rewrite E in D. unfold B. rewrite D at 2.
  rewrite Nat.add_0_r, Nat2Z.inj_mul, inject_Z_mult. change (inject_Z (Z.of_nat 2)) with (2#1). field.
Qed.
Lemma half_odd : (nBins mod 2 = 1)%nat -> inject_Z (Z.of_nat (nBins / 2)) == inject_Z (B - 1) * (1#2).
Proof.
  intro E. pose proof (Nat.div_mod nBins 2 ltac:(lia)) as D. rewrite E in D. unfold B. rewrite D at 2.
  replace (Z.of_nat (2 * (nBins / 2) + 1) - 1)%Z with (2 * Z.of_nat (nBins / 2))%Z by lia.
  rewrite inject_Z_mult. change (inject_Z 2) with (2#1). field.
Qed.
Let h := Z.of_nat (nBins / 2).
Let u (x : Q) := (x - (mx + mn) / (2#1)) * (inject_Z (B - 1) / (mx - mn)).
Lemma u_t x : u x == t x - inject_Z (B - 1) * (1#2).
Proof. unfold u, t. pose proof mn_lt_mx. field. lra. Qed.
Lemma eval_mid_at x : eval_mid L x = peek (l_tab L) (S + (h + qtrunc (u x))).
Proof. unfold eval_mid, mid_off. f_equal. change (l_bins L) with nBins. change (l_safety L) with nSafety. unfold h, S, u. rewrite Nat2Z.inj_add. cbn [l_mid l_scale L l0]. lia. Qed.
Lemma B1 : inject_Z (B - 1) == inject_Z B - 1.
Proof. unfold Z.sub. rewrite inject_Z_plus. reflexivity. Qed.

Lemma eval_mid_in x : mn <= x <= mx ->
  exists k, (0 <= k <= B - 1)%Z /\ eval_mid L x = Some (f (grid mn mx B k)) /\ Qabs (x - grid mn mx B k) < (3#2) * gap mn mx B.
Proof.
  intros [H1 H2]. apply t_le in H1, H2. rewrite t_mn in H1. rewrite t_mx in H2. pose proof gap_pos as Gp.
  exists (h + qtrunc (u x))%Z. pose proof (u_t x) as U. pose proof B1 as B1.
  assert (Hh : inject_Z h == inject_Z B * (1#2) \/ inject_Z h == inject_Z (B - 1) * (1#2)).
  { pose proof (Nat.mod_upper_bound nBins 2 ltac:(lia)). destruct (nBins mod 2)%nat as [|[|]] eqn:E; [ left; now apply half_even | right; now apply half_odd | lia ]. }
  assert (Err : - (3#2) < t x - inject_Z (h + qtrunc (u x)) /\ t x - inject_Z (h + qtrunc (u x)) < (3#2) /\ (0 <= h + qtrunc (u x) <= B - 1)%Z).
  { rewrite inject_Z_plus. destruct (Qlt_le_dec (u x) 0) as [Neg|Pos].
    - destruct (qtrunc_neg _ Neg) as (A1 & A2 & A3). rewrite inj_pred in A3.
      split; [ destruct Hh; lra |]. split; [ destruct Hh; lra |]. split.
      + assert (-1 < h + qtrunc (u x))%Z; [| lia ]. apply inj_lt. rewrite inject_Z_plus. change (inject_Z (-1)) with (-(1)). destruct Hh; lra.
      + unfold h, B. pose proof (Nat.div_le_upper_bound nBins 2 (nBins - 1) ltac:(lia) ltac:(lia)). lia.
    - destruct (qtrunc_nonneg _ Pos) as (A1 & A2 & A3). rewrite inj_succ in A3.
      split; [ destruct Hh; lra |]. split; [ destruct Hh; lra |]. split; [ unfold h; lia |].
      assert (h + qtrunc (u x) < B)%Z; [| lia ]. apply inj_lt. rewrite inject_Z_plus. destruct Hh; lra. }
  destruct Err as (E1 & E2 & E3). split; auto. split.
  - rewrite eval_mid_at. unfold L. rewrite (entry _ _ id_exact).
    destruct (Z.ltb_spec (h + qtrunc (u x)) (- S)); [ unfold S in *; lia |].
    destruct (Z.ltb_spec (h + qtrunc (u x)) (B + S)); [| unfold S in *; lia ].
    do 2 f_equal. f_equal. lia.
  - apply Qabs_Qlt_condition. assert (E : x - grid mn mx B (h + qtrunc (u x)) == (t x - inject_Z (h + qtrunc (u x))) * gap mn mx B).
    { rewrite (t_grid x) at 1. unfold grid, gap. ring. }
    rewrite E. split; nra.
Qed.

Lemma qtrunc_unique_neg x k : x < 0 -> x <= inject_Z k -> inject_Z k < x + 1 -> qtrunc x = k.
Proof.
  intros H A C. destruct (qtrunc_neg x H) as (A1 & A2 & A3). rewrite inj_pred in A3.
  assert (qtrunc x < k + 1)%Z by (apply inj_lt; rewrite inj_succ; lra).
  assert (k < qtrunc x + 1)%Z by (apply inj_lt; rewrite inj_succ; lra). lia.
Qed.

(** even bin counts: the lower half of the domain is looked up one entry too high, e.g. at the minimum *)
Lemma eval_mid_even_min : (nBins mod 2 = 0)%nat -> eval_mid L mn = Some (f (grid mn mx B 1)).
Proof.
  intro E. rewrite eval_mid_at. pose proof (half_even E) as Hh. fold h in Hh. pose proof B1 as B1. pose proof (u_t mn) as U. rewrite t_mn in U.
  pose proof b1_pos as Bp.
  assert (Q : qtrunc (u mn) = (1 - h)%Z).
  { apply qtrunc_unique_neg.
    - lra.
    - unfold Z.sub. rewrite inject_Z_plus, inject_Z_opp. change (inject_Z 1) with 1. lra.
    - unfold Z.sub. rewrite inject_Z_plus, inject_Z_opp. change (inject_Z 1) with 1. lra. }
  rewrite Q. replace (h + (1 - h))%Z with 1%Z by lia. unfold L. rewrite (entry _ _ id_exact).
  destruct (Z.ltb_spec 1 (- S)); [ unfold S in *; lia |].
  destruct (Z.ltb_spec 1 (B + S)); [| unfold S, B in *; lia ].
  do 2 f_equal. f_equal. unfold B. lia.
Qed.

(** rounding mid lookup with an odd bin count returns a nearest grid point *)
Lemma eval_mid_round_odd x : (nBins mod 2 = 1)%nat -> mn <= x <= mx ->
  exists k, (0 <= k <= B - 1)%Z /\ eval_mid_round L x = Some (f (grid mn mx B k)) /\ Qabs (x - grid mn mx B k) <= gap mn mx B / (2#1).
Proof.
  intros Od [H1 H2]. apply t_le in H1, H2. rewrite t_mn in H1. rewrite t_mx in H2. pose proof gap_pos as Gp.
  pose proof (half_odd Od) as Hh. fold h in Hh. pose proof (u_t x) as U. pose proof B1 as B1.
  pose proof (qround_near (u x)) as N. apply Qabs_Qle_condition in N. destruct N as [N1 N2].
  exists (h + qround (u x))%Z.
  assert (K : - (1#2) <= t x - inject_Z (h + qround (u x)) /\ t x - inject_Z (h + qround (u x)) <= 1#2).
  { rewrite inject_Z_plus. split; lra. }
  assert (K0 : (0 <= h + qround (u x))%Z). { assert (-1 < h + qround (u x))%Z; [| lia ]. apply inj_lt. change (inject_Z (-1)) with (-(1)). lra. }
  assert (K1 : (h + qround (u x) <= B - 1)%Z). { assert (h + qround (u x) < B)%Z; [| lia ]. apply inj_lt. lra. }
  split; [ lia |]. split.
  - unfold eval_mid_round, mid_off. change (l_bins L) with nBins. change (l_safety L) with nSafety. rewrite Nat2Z.inj_add. fold h S.
    change ((x - l_mid L) * l_scale L) with (u x). replace (h + S + qround (u x))%Z with (S + (h + qround (u x)))%Z by lia.
    unfold L. rewrite (entry _ _ id_exact).
    destruct (Z.ltb_spec (h + qround (u x)) (- S)); [ unfold S in *; lia |].
    destruct (Z.ltb_spec (h + qround (u x)) (B + S)); [| unfold S in *; lia ].
    do 2 f_equal. f_equal. lia.
  - apply Qabs_Qle_condition. assert (E : x - grid mn mx B (h + qround (u x)) == (t x - inject_Z (h + qround (u x))) * gap mn mx B).
    { rewrite (t_grid x) at 1. unfold grid, gap. ring. }
    rewrite E. setoid_replace (gap mn mx B / (2#1)) with ((1#2) * gap mn mx B) by field. split; nra.
Qed.
End Lut.

Lemma trunc_int k : qtrunc (inject_Z k) = k.
Proof. unfold qtrunc. destruct (Qle_bool 0 (inject_Z k)); [ apply Qfloor_Z | apply Qceiling_Z ]. Qed.
Lemma qtrunc_eq x y : x == y -> qtrunc x = qtrunc y.
Proof.
  intro E. unfold qtrunc. assert (Q : Qle_bool 0 x = Qle_bool 0 y).
  { destruct (Qle_bool 0 x) eqn:A, (Qle_bool 0 y) eqn:C; auto.
    - apply Qle_bool_iff in A. rewrite E in A. apply Qle_bool_iff in A. congruence.
    - apply Qle_bool_iff in C. rewrite <- E in C. apply Qle_bool_iff in C. congruence. }
  rewrite Q. destruct (Qle_bool 0 y); [ now apply Qfloor_comp | now apply Qceiling_comp ].
Qed.

(** integer tables with one entry per value (LUT<uchar,float,256> of SegmMatcher): every raw or offset lookup returns exactly f(x) *)
Lemma integer_table {T} (f : Q -> T) (m : Z) (nBins : nat) x : respects_eq f -> (2 <= nBins)%nat ->
  (m <= x <= m + Z.of_nat nBins - 1)%Z ->
  exists l, lut_init (fun q => inject_Z (qtrunc q)) nBins 0 (inject_Z m) (inject_Z (m + Z.of_nat nBins - 1)) f = Some l /\
    eval l (inject_Z x) = Some (f (inject_Z x)) /\ eval_raw l (x - m) = Some (f (inject_Z x)).
Proof.
  intros F Hb Hx. set (c := fun q => inject_Z (qtrunc q)).
  assert (Lt : inject_Z m < inject_Z (m + Z.of_nat nBins - 1)) by (apply inj_lt'; lia).
  assert (Hab : ~ inject_Z m == inject_Z (m + Z.of_nat nBins - 1)) by lra.
  assert (Mn : qmin (inject_Z m) (inject_Z (m + Z.of_nat nBins - 1)) = inject_Z m).
  { unfold qmin. rewrite (proj2 (Qle_bool_iff _ _)); auto. lra. }
  assert (Mx : qmax (inject_Z m) (inject_Z (m + Z.of_nat nBins - 1)) = inject_Z (m + Z.of_nat nBins - 1)).
  { unfold qmax. rewrite (proj2 (Qle_bool_iff _ _)); auto. lra. }
  assert (Bp : 0 < inject_Z (Z.of_nat nBins - 1)) by (change 0 with (inject_Z 0); apply inj_lt'; lia).
  assert (D : inject_Z (m + Z.of_nat nBins - 1) - inject_Z m == inject_Z (Z.of_nat nBins - 1)).
  { rewrite <- inject_Z_opp, <- inject_Z_plus at 1 || idtac. replace (m + Z.of_nat nBins - 1)%Z with (m + (Z.of_nat nBins - 1))%Z by lia. rewrite inject_Z_plus. ring. }
  assert (G : gap (qmin (inject_Z m) (inject_Z (m + Z.of_nat nBins - 1))) (qmax (inject_Z m) (inject_Z (m + Z.of_nat nBins - 1))) (Z.of_nat nBins) == 1).
  { rewrite Mn, Mx. unfold gap. rewrite D. field. lra. }
  assert (Ec : exact_on_grid nBins (inject_Z m) (inject_Z (m + Z.of_nat nBins - 1)) c).
  { intros k _. set (g := gap _ _ _). assert (E : inject_Z k * g == inject_Z k) by (unfold g; rewrite G; ring).
    unfold c. rewrite (qtrunc_eq _ _ E), trunc_int. now symmetry. }
  exists (l0 f nBins 0 (inject_Z m) (inject_Z (m + Z.of_nat nBins - 1)) c).
  split; [ apply init_ok; auto |].
  assert (Key : forall k, k = (x - m)%Z -> peek (l_tab (l0 f nBins 0 (inject_Z m) (inject_Z (m + Z.of_nat nBins - 1)) c)) (Z.of_nat 0 + k) = Some (f (inject_Z x))).
  { intros k ->. rewrite (entry f F nBins 0 Hb _ _ Hab c _ Ec).
    destruct (Z.ltb_spec (x - m) (- Z.of_nat 0)); [ lia |]. destruct (Z.ltb_spec (x - m) (Z.of_nat nBins + Z.of_nat 0)); [| lia ].
    f_equal. apply F. replace (Z.max 0 (Z.min (Z.of_nat nBins - 1) (x - m))) with (x - m)%Z by lia.
    unfold grid. fold (gap (qmin (inject_Z m) (inject_Z (m + Z.of_nat nBins - 1))) (qmax (inject_Z m) (inject_Z (m + Z.of_nat nBins - 1))) (Z.of_nat nBins)).
    rewrite G, Mn. unfold Z.sub. rewrite inject_Z_plus, inject_Z_opp. ring. }
  split; [ unfold eval | unfold eval_raw ]; apply Key; auto.
  cbn [l_min l_scale l0]. rewrite (qtrunc_eq _ (inject_Z (x - m))); [ apply trunc_int |].
  assert (Em : inject_Z (x - m) == inject_Z x - inject_Z m) by (unfold Z.sub; rewrite inject_Z_plus, inject_Z_opp; ring).
  rewrite Mn, Mx, D, Em. field. lra.
Qed.
