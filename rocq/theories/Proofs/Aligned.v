From Coq Require Import ZArith List Bool Lia.
From Verif Require Import Model.Aligned Spec.Aligned.
Import ListNotations.
Open Scope Z_scope.

Lemma land_minus x k : 0 <= k -> Z.land x (- 2 ^ k) = x / 2 ^ k * 2 ^ k.
Proof.
  intros Hk. replace (- 2 ^ k) with (Z.lnot (Z.ones k)).
  - rewrite <- Z.ldiff_land, Z.ldiff_ones_r by lia. rewrite Z.shiftl_mul_pow2, Z.shiftr_div_pow2 by lia. reflexivity.
  - unfold Z.lnot. rewrite Z.ones_equiv. lia.
Qed.

Lemma up_ge n v : 0 < n -> v <= up n v < v + n.
Proof.
  intros H. unfold up.
  pose proof (Z.div_mod (v + n - 1) n ltac:(lia)). pose proof (Z.mod_pos_bound (v + n - 1) n H). nia.
Qed.

Lemma up_mod n v : 0 < n -> up n v mod n = 0.
Proof. intros. unfold up. apply Z.mod_mul. lia. Qed.

Lemma up_fix n v : 0 < n -> v mod n = 0 -> up n v = v.
Proof.
  intros H E. unfold up. pose proof (Z.div_mod v n ltac:(lia)) as D. rewrite E, Z.add_0_r in D.
  replace (v + n - 1) with (n - 1 + (v / n) * n) by lia.
  rewrite Z.div_add by lia. rewrite (Z.div_small (n - 1)) by lia. lia.
Qed.

Lemma power_pos n : power_of_two n -> 0 < n.
Proof. intros (k & H & ->). apply Z.pow_pos_nonneg; lia. Qed.

Lemma power_divides n : power_of_two n -> exists q, 18446744073709551616 = n * q.
Proof.
  intros (k & H & ->). exists (2 ^ (64 - k)). rewrite <- Z.pow_add_r by lia.
  replace (k + (64 - k)) with 64 by lia. reflexivity.
Qed.

Lemma align_up n v : power_of_two n -> 0 <= v -> up n v < 18446744073709551616 -> alignSize v n = up n v.
Proof.
  intros P Hv B. pose proof (power_pos n P) as Hn. pose proof (up_ge n v Hn) as G.
  assert (Hs : v + n - 1 < 18446744073709551616).
  { destruct (power_divides n P) as (q & Q). pose proof (Z.div_mod (up n v) n ltac:(lia)) as D. rewrite (up_mod n v Hn), Z.add_0_r in D.
    assert (up n v / n < q) by nia. nia. }
  unfold alignSize, u64.
  change 18446744073709551616 with (2 ^ 64) in *. rewrite <- !Z.land_ones by lia.
  replace (Z.land (Z.land (v + n - 1) (Z.ones 64)) (Z.land (- n) (Z.ones 64)))
     with (Z.land (Z.land (v + n - 1) (- n)) (Z.ones 64)).
  - destruct P as (k & H & ->). rewrite land_minus by lia. fold (up (2 ^ k) v). rewrite Z.land_ones by lia. apply Z.mod_small. lia.
  - rewrite <- !Z.land_assoc. f_equal. rewrite (Z.land_comm (Z.ones 64) (Z.land _ _)), <- Z.land_assoc, Z.land_diag. reflexivity.
Qed.

Definition elem (single : bool) (n e : Z) : Z := if single then up n e else e.

Fixpoint exact (n e : Z) (sizes : list Z) : list Z :=
  match sizes with [] => [] | _ :: ss => needed n e ss :: exact n e ss end.

Lemma needed_pos n e sizes : 0 < n -> 0 < e -> Forall (fun s => 0 < s) sizes -> 0 < needed n e sizes.
Proof.
  intros Hn He F. induction F as [|s ss Hs F IH]; cbn; [ lia | ].
  pose proof (up_ge n (s * needed n e ss) Hn). nia.
Qed.

Lemma needed_tail n e s ss : 0 < n -> 0 < e -> 0 < s -> Forall (fun s => 0 < s) ss -> needed n e ss <= needed n e (s :: ss).
Proof.
  intros Hn He Hs F. pose proof (needed_pos n e ss Hn He F). cbn.
  pose proof (up_ge n (s * needed n e ss) Hn). nia.
Qed.

Lemma elem_ge single n e : 0 < n -> e <= elem single n e.
Proof. intros. destruct single; cbn; [ apply up_ge; lia | lia ]. Qed.

Lemma needed_ge n e sizes : 0 < n -> 0 < e -> Forall (fun s => 0 < s) sizes -> e <= needed n e sizes.
Proof.
  intros Hn He F. induction F as [|s ss Hs F IH]; [ cbn; lia | ].
  pose proof (needed_tail n e s ss Hn He Hs F). lia.
Qed.

Lemma steps_exact single n e sizes :
  power_of_two n -> 0 < e -> Forall (fun s => 0 < s) sizes -> needed n (elem single n e) sizes < 18446744073709551616 ->
  steps single n e sizes = exact n (elem single n e) sizes.
Proof.
  intros P He F. pose proof (power_pos n P) as Hn. pose proof (elem_ge single n e Hn) as Ge.
  induction F as [|s ss Hs F IH]; intros B; [ reflexivity | ].
  assert (B' : needed n (elem single n e) ss < 18446744073709551616).
  { pose proof (needed_tail n (elem single n e) s ss Hn ltac:(lia) Hs F). lia. }
  specialize (IH B'). destruct ss as [|s1 ss'].
  - cbn in *. destruct single; cbn in *; [ | reflexivity ]. f_equal. apply align_up; auto; lia.
  - change (steps single n e (s :: s1 :: ss')) with
      (alignSize (u64 (hd 0 (steps single n e (s1 :: ss')) * s1)) n :: steps single n e (s1 :: ss')).
    rewrite IH.
    change (exact n (elem single n e) (s :: s1 :: ss')) with (needed n (elem single n e) (s1 :: ss') :: exact n (elem single n e) (s1 :: ss')).
    f_equal. cbn [exact hd]. inversion F as [|? ? Hs1 F']; subst.
    pose proof (needed_pos n (elem single n e) ss' Hn ltac:(lia) F') as Np.
    cbn [needed] in B' |- *. set (N := needed n (elem single n e) ss') in *.
    pose proof (up_ge n (s1 * N) Hn) as U. rewrite (Z.mul_comm N s1).
    assert (0 < s1 * N) by nia.
    unfold u64. rewrite Z.mod_small by lia. apply align_up; auto; lia.
Qed.

Lemma total_exact single n e s ss :
  power_of_two n -> 0 < e -> Forall (fun s => 0 < s) (s :: ss) -> needed n (elem single n e) (s :: ss) < 18446744073709551616 ->
  total single n e (s :: ss) = needed n (elem single n e) (s :: ss).
Proof.
  intros P He F B. pose proof (power_pos n P) as Hn. pose proof (elem_ge single n e Hn) as Ge.
  unfold total. rewrite steps_exact by auto. inversion F as [|? ? Hs F']; subst. cbn [exact hd needed] in *.
  pose proof (needed_pos n (elem single n e) ss Hn ltac:(lia) F') as Np. set (N := needed n (elem single n e) ss) in *.
  pose proof (up_ge n (s * N) Hn) as U. rewrite (Z.mul_comm N s). assert (0 < s * N) by nia.
  unfold u64. rewrite Z.mod_small by lia. apply align_up; auto; lia.
Qed.

Lemma block_exact single n e s ss :
  power_of_two n -> 0 < e -> Forall (fun s => 0 < s) (s :: ss) -> needed n (elem single n e) (s :: ss) < 18446744073709551616 ->
  block single n e (s :: ss) = needed n (elem single n e) (s :: ss).
Proof.
  intros P He F B. unfold block. rewrite total_exact by auto. unfold alloc_size.
  cbn [needed]. rewrite up_mod by (apply power_pos; auto). reflexivity.
Qed.

Lemma index_pos sizes idx : index_of sizes idx -> Forall (fun s => 0 < s) sizes.
Proof. intros F. induction F; constructor; auto; lia. Qed.

Lemma offset_inside n e sizes idx :
  0 < n -> 0 < e -> index_of sizes idx -> 0 <= offset (exact n e sizes) idx /\ offset (exact n e sizes) idx + e <= needed n e sizes.
Proof.
  intros Hn He F. induction F as [|s i ss ii Hi F IH]; cbn; [ lia | ].
  pose proof (needed_pos n e ss Hn He (index_pos _ _ F)) as Np. set (N := needed n e ss) in *.
  pose proof (up_ge n (s * N) Hn). nia.
Qed.

Lemma offset_order n e sizes a b :
  0 < n -> 0 < e -> index_of sizes a -> index_of sizes b -> precedes a b ->
  offset (exact n e sizes) a + e <= offset (exact n e sizes) b.
Proof.
  intros Hn He Fa Fb Pr. revert sizes Fa Fb. induction Pr as [i j a b L|i a b Pr IH]; intros sizes Fa Fb.
  - inversion Fa as [|s ? ss ? Ha Fa']; subst. inversion Fb as [|? ? ? ? Hb Fb']; subst. cbn.
    pose proof (offset_inside n e ss a Hn He Fa'). pose proof (offset_inside n e ss b Hn He Fb').
    pose proof (needed_pos n e ss Hn He (index_pos _ _ Fa')). nia.
  - inversion Fa as [|s ? ss ? Ha Fa']; subst. inversion Fb as [|? ? ? ? Hb Fb']; subst. cbn.
    specialize (IH ss Fa' Fb'). lia.
Qed.

Lemma precedes_total sizes a b : index_of sizes a -> index_of sizes b -> a <> b -> precedes a b \/ precedes b a.
Proof.
  intros Fa. revert b. induction Fa as [|s i ss ii Hi Fa IH]; intros b Fb N; inversion Fb as [|? j ? jj Hj Fb']; subst.
  - congruence.
  - destruct (Z.lt_trichotomy i j) as [L|[ -> |L]].
    + left; constructor; auto.
    + destruct (IH jj Fb' ltac:(congruence)); [ left | right ]; constructor 2; auto.
    + right; constructor; auto.
Qed.

Lemma offset_row n e sizes idx :
  0 < n -> index_of sizes (idx ++ [0]) -> offset (exact n e sizes) (idx ++ [0]) mod n = 0.
Proof.
  intros Hn. revert sizes. induction idx as [|i ii IH]; intros sizes F; cbn in F; inversion F as [|s ? ss ? Hi F']; subst.
  - inversion F'; subst. cbn. reflexivity.
  - cbn. destruct ss as [|s1 ss1]; [ inversion F'; destruct ii; discriminate | ].
    specialize (IH _ F').
    rewrite Z.add_mod, IH, Z.add_0_r, Z.mod_mod by lia.
    cbn [needed]. rewrite Z.mul_mod, up_mod, Z.mul_0_r, Z.mod_0_l by lia. reflexivity.
Qed.

Lemma needed_mod n e ss : 0 < n -> e mod n = 0 -> needed n e ss mod n = 0.
Proof. intros. destruct ss; cbn; [ auto | apply up_mod; auto ]. Qed.

Lemma offset_mod n e sizes idx :
  0 < n -> e mod n = 0 -> offset (exact n e sizes) idx mod n = 0.
Proof.
  intros Hn He. revert idx. induction sizes as [|s ss IH]; intros idx; cbn; [ reflexivity | ].
  destruct idx as [|i ii]; [ reflexivity | ].
  rewrite Z.add_mod, IH, Z.add_0_r, Z.mod_mod by lia.
  rewrite Z.mul_mod, needed_mod, Z.mul_0_r, Z.mod_0_l by auto with zarith. reflexivity.
Qed.

Lemma needed_rows n e pre last :
  0 < n -> (last * e) mod n = 0 -> needed n e (pre ++ [last]) = fold_right Z.mul (last * e) pre.
Proof.
  intros Hn H. induction pre as [|s ss IH]; cbn [app needed fold_right].
  - apply up_fix; auto.
  - rewrite IH. apply up_fix; auto.
    assert (M : fold_right Z.mul (last * e) ss mod n = 0).
    { rewrite <- IH. destruct ss; cbn; apply up_mod; auto. }
    rewrite Z.mul_mod, M, Z.mul_0_r, Z.mod_0_l by lia. reflexivity.
Qed.

Section Stated.
  Context (single : bool) (n e : Z) (sizes : list Z).
  Context (P : power_of_two n) (He : 0 < e).
  Context (B : needed n (if single then up n e else e) sizes < 18446744073709551616).

  Lemma elem_pos : 0 < elem single n e.
  Proof. pose proof (elem_ge single n e (power_pos n P)). lia. Qed.

  Lemma aligned_inside idx : sizes <> [] -> index_of sizes idx ->
    0 <= offset (steps single n e sizes) idx /\ offset (steps single n e sizes) idx + e <= block single n e sizes.
  Proof.
    intros Ne F. pose proof (index_pos _ _ F) as Fp. fold (elem single n e) in B.
    destruct sizes as [|s ss]; [ congruence | ].
    rewrite block_exact, steps_exact by auto.
    pose proof (offset_inside n (elem single n e) (s :: ss) idx (power_pos n P) elem_pos F).
    pose proof (elem_ge single n e (power_pos n P)). lia.
  Qed.

  Lemma aligned_order a b : index_of sizes a -> index_of sizes b -> precedes a b ->
    offset (steps single n e sizes) a + e <= offset (steps single n e sizes) b.
  Proof.
    intros Fa Fb Pr. pose proof (index_pos _ _ Fa) as Fp. fold (elem single n e) in B. rewrite steps_exact by auto.
    pose proof (offset_order n (elem single n e) sizes a b (power_pos n P) elem_pos Fa Fb Pr).
    pose proof (elem_ge single n e (power_pos n P)). lia.
  Qed.

  Lemma aligned_row base idx : base mod n = 0 -> index_of sizes (idx ++ [0]) ->
    (base + offset (steps single n e sizes) (idx ++ [0])) mod n = 0.
  Proof.
    intros Hb F. pose proof (index_pos _ _ F) as Fp. fold (elem single n e) in B. rewrite steps_exact by auto.
    pose proof (power_pos n P).
    rewrite Z.add_mod, Hb, (offset_row n (elem single n e) sizes idx) by auto with zarith. apply Z.mod_0_l. lia.
  Qed.
End Stated.

Lemma aligned_elements n e sizes base idx :
  power_of_two n -> 0 < e -> needed n (up n e) sizes < 18446744073709551616 -> base mod n = 0 -> index_of sizes idx ->
  (base + offset (steps true n e sizes) idx) mod n = 0.
Proof.
  intros P He B Hb F. pose proof (index_pos _ _ F) as Fp. pose proof (power_pos n P).
  rewrite steps_exact by auto.
  rewrite Z.add_mod, Hb, (offset_mod n (elem true n e) sizes idx) by (auto with zarith; apply up_mod; auto). apply Z.mod_0_l. lia.
Qed.

Lemma aligned_rows_plain n e pre last :
  power_of_two n -> 0 < e -> 0 < last -> Forall (fun s => 0 < s) pre -> (last * e) mod n = 0 ->
  fold_right Z.mul (last * e) pre < 18446744073709551616 ->
  block false n e (pre ++ [last]) = fold_right Z.mul (last * e) pre.
Proof.
  intros P He Hl F M B. pose proof (power_pos n P) as Hn.
  assert (F' : Forall (fun s => 0 < s) (pre ++ [last])) by (apply Forall_app; split; auto).
  pose proof (needed_rows n e pre last Hn M) as N.
  destruct (pre ++ [last]) as [|s ss] eqn:E; [ destruct pre; discriminate | ].
  rewrite block_exact; auto; cbn [elem]; rewrite N; auto.
Qed.
