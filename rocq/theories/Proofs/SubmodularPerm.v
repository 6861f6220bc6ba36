From Coq Require Import ZArith List Bool Lia.
From Verif Require Import Lib.Grid Model.Submodular Spec.Submodular Proofs.Submodular Proofs.SubmodularLinear Proofs.SubmodularNormal.
Import ListNotations.
Open Scope Z_scope.

(* numbers of elements *)
Fixpoint pcp (p : positive) : Z := match p with xH => 1 | xO p => pcp p | xI p => 1 + pcp p end.
Definition pc (z : Z) : Z := match z with Zpos p => pcp p | _ => 0 end.
Lemma pc_even a : pc (2 * a) = pc a.
Proof. destruct a; reflexivity. Qed.
Lemma pc_odd a : 0 <= a -> pc (2 * a + 1) = 1 + pc a.
Proof. destruct a; [reflexivity|reflexivity|lia]. Qed.
Lemma pc_nonneg a : 0 <= pc a.
Proof. destruct a; cbn [pc]; try lia. induction p; cbn [pcp]; lia. Qed.
Lemma pc_zero a : 0 <= a -> pc a = 0 -> a = 0.
Proof. destruct a; intros H E; [reflexivity| |lia]. exfalso. cbn [pc] in E. enough (0 < pcp p) by lia. clear. induction p; cbn [pcp]; lia. Qed.
Lemma halves a : exists h b, a = 2 * h + b /\ (b = 0 \/ b = 1).
Proof. exists (a / 2), (a mod 2). split; [apply Z.div_mod; lia|]. assert (X := Z.mod_pos_bound a 2 ltac:(lia)). lia. Qed.
Lemma pc_split_nat k q r : 0 <= q -> 0 <= r < 2 ^ Z.of_nat k -> pc (q * 2 ^ Z.of_nat k + r) = pc q + pc r.
Proof.
  revert r. induction k as [|k IH]; intros r Hq Hr.
  - cbn in Hr |- *. replace r with 0 by lia. rewrite Z.mul_1_r, Z.add_0_r. cbn. lia.
  - rewrite Nat2Z.inj_succ, Z.pow_succ_r in * by lia. set (P := 2 ^ Z.of_nat k) in *. destruct (halves r) as (h & b & -> & [->| ->]).
    + replace (q * (2 * P) + (2 * h + 0)) with (2 * (q * P + h)) by lia. rewrite Z.add_0_r, !pc_even. apply IH; lia.
    + replace (q * (2 * P) + (2 * h + 1)) with (2 * (q * P + h) + 1) by lia. rewrite !pc_odd by nia. rewrite IH by lia. lia.
Qed.
Lemma pc_split k q r : 0 <= k -> 0 <= q -> 0 <= r < 2 ^ k -> pc (q * 2 ^ k + r) = pc q + pc r.
Proof. intros Hk. rewrite <- (Z2Nat.id k) by lia. apply pc_split_nat. Qed.
Lemma pc_shift k q : 0 <= k -> 0 <= q -> pc (q * 2 ^ k) = pc q.
Proof. intros Hk Hq. rewrite <- (Z.add_0_r (q * 2 ^ k)), pc_split by first [lia | split; [lia|apply pow_pos; lia]]. cbn. lia. Qed.
Lemma pc_bound_nat k r : 0 <= r < 2 ^ Z.of_nat k -> pc r <= Z.of_nat k.
Proof.
  revert r. induction k as [|k IH]; intros r Hr; [cbn in Hr; replace r with 0 by lia; cbn; lia|].
  rewrite Nat2Z.inj_succ, Z.pow_succ_r in * by lia. destruct (halves r) as (h & b & -> & [->| ->]).
  - rewrite Z.add_0_r, pc_even. specialize (IH h ltac:(lia)). lia.
  - rewrite pc_odd by lia. specialize (IH h ltac:(lia)). lia.
Qed.
Lemma pc_bound k r : 0 <= k -> 0 <= r < 2 ^ k -> pc r <= k.
Proof. intros Hk. rewrite <- (Z2Nat.id k) by lia. apply pc_bound_nat. Qed.
Lemma pc_ones_nat k : pc (2 ^ Z.of_nat k - 1) = Z.of_nat k.
Proof.
  induction k as [|k IH]; [reflexivity|]. rewrite Nat2Z.inj_succ, Z.pow_succ_r by lia. assert (0 < 2 ^ Z.of_nat k) by (apply pow_pos; lia).
  replace (2 * 2 ^ Z.of_nat k - 1) with (2 * (2 ^ Z.of_nat k - 1) + 1) by lia. rewrite pc_odd by lia. lia.
Qed.
Lemma pc_ones k : 0 <= k -> pc (2 ^ k - 1) = k.
Proof. intros Hk. rewrite <- (Z2Nat.id k) by lia. apply pc_ones_nat. Qed.
Lemma pc_small_nat k r : 0 <= r < 2 ^ Z.of_nat k - 1 -> pc r < Z.of_nat k.
Proof.
  revert r. induction k as [|k IH]; intros r Hr; [cbn in Hr; lia|].
  rewrite Nat2Z.inj_succ, Z.pow_succ_r in * by lia. destruct (halves r) as (h & b & -> & [->| ->]).
  - rewrite Z.add_0_r, pc_even. assert (X := pc_bound_nat k h ltac:(lia)). lia.
  - rewrite pc_odd by lia. specialize (IH h ltac:(lia)). lia.
Qed.
Lemma pc_small k r : 0 <= k -> 0 <= r < 2 ^ k - 1 -> pc r < k.
Proof. intros Hk. rewrite <- (Z2Nat.id k) by lia. apply pc_small_nat. Qed.
Lemma size_nat m S : within (Z.of_nat m) S -> weigh m (fun _ => 1) S = pc S.
Proof.
  revert S. induction m as [|m IH]; intros S [H0 H1]; [cbn in H1; replace S with 0 by lia; reflexivity|].
  cbn [weigh]. assert (P := pow_pos (Z.of_nat m) ltac:(lia)). rewrite Nat2Z.inj_succ, Z.pow_succ_r in H1 by lia.
  rewrite (weigh_ext m _ S (S mod 2 ^ Z.of_nat m)) by (intros i Hi; rewrite Z.mod_pow2_bits_low by lia; reflexivity).
  assert (M := Z.mod_pos_bound S (2 ^ Z.of_nat m) P). rewrite IH by exact M. assert (D := Z.div_mod S (2 ^ Z.of_nat m) ltac:(lia)).
  set (q := S / 2 ^ Z.of_nat m) in *. set (r := S mod 2 ^ Z.of_nat m) in *. replace (2 ^ Z.of_nat m * q + r) with (q * 2 ^ Z.of_nat m + r) in D by lia.
  assert (Hq : q = 0 \/ q = 1) by nia. replace (pc S) with (pc q + pc r) by (rewrite D, pc_split by lia; reflexivity).
  assert (T : Z.testbit S (Z.of_nat m) = (q =? 1)).
  { rewrite <- (Z.add_0_l (Z.of_nat m)), <- Z.div_pow2_bits by lia. fold q. destruct Hq as [->| ->]; reflexivity. }
  rewrite T. destruct Hq as [->| ->]; cbn [Z.eqb Pos.eqb pc pcp]; lia.
Qed.
Lemma size_pc n S : 0 <= n -> within n S -> size n S = pc S.
Proof. intros Hn H. apply size_nat. rewrite Z2Nat.id by lia. exact H. Qed.

(* the next set of the same size *)
Lemma double_lor a b x y : (x = 0 \/ x = 1) -> (y = 0 \/ y = 1) -> Z.lor (2 * a + x) (2 * b + y) = 2 * Z.lor a b + Z.lor x y.
Proof.
  intros [->| ->] [->| ->]; apply bits_ext; intros i Hi; rewrite Z.lor_spec; cbn [Z.lor Pos.lor]; rewrite ?Z.add_0_r;
    (destruct (Z.eq_dec i 0) as [->|N]; [rewrite ?Z.testbit_odd_0, ?Z.testbit_even_0; reflexivity|]);
    replace i with (Z.succ (i - 1)) by lia; rewrite ?Z.testbit_odd_succ, ?Z.testbit_even_succ, Z.lor_spec by lia; reflexivity.
Qed.
Lemma double_land a b x y : (x = 0 \/ x = 1) -> (y = 0 \/ y = 1) -> Z.land (2 * a + x) (2 * b + y) = 2 * Z.land a b + Z.land x y.
Proof.
  intros [->| ->] [->| ->]; apply bits_ext; intros i Hi; rewrite Z.land_spec; cbn [Z.land Pos.land Z.of_N]; rewrite ?Z.add_0_r;
    (destruct (Z.eq_dec i 0) as [->|N]; [rewrite ?Z.testbit_odd_0, ?Z.testbit_even_0; reflexivity|]);
    replace i with (Z.succ (i - 1)) by lia; rewrite ?Z.testbit_odd_succ, ?Z.testbit_even_succ, Z.land_spec by lia; reflexivity.
Qed.
Lemma fill p : Z.lor (Zpos p) (Zpos p - 1) = Zpos p + 2 ^ ctzp p - 1.
Proof.
  induction p as [p IH|p IH|]; [| |reflexivity].
  - rewrite Pos2Z.inj_xI. cbn [ctzp]. replace (2 * Zpos p + 1 - 1) with (2 * Zpos p + 0) by lia. rewrite double_lor by lia. rewrite Z.lor_diag. cbn. lia.
  - rewrite Pos2Z.inj_xO. cbn [ctzp]. assert (C := ctzp_nonneg p). replace (2 * Zpos p) with (2 * Zpos p + 0) at 1 by lia.
    replace (2 * Zpos p - 1) with (2 * (Zpos p - 1) + 1) by lia. rewrite double_lor by lia. rewrite IH. rewrite Z.pow_add_r, Z.pow_1_r by lia. cbn [Z.lor]. lia.
Qed.
Lemma lowest_zero e q : 0 <= e -> Z.land (Z.lnot (q * 2 ^ (e + 1) + 2 ^ e - 1)) (q * 2 ^ (e + 1) + 2 ^ e) = 2 ^ e.
Proof.
  intros He. pattern e. apply natlike_ind; [|intros k Hk IH|assumption].
  - cbn [Z.add]. change (2 ^ 1) with 2. change (2 ^ 0) with 1. replace (Z.lnot (q * 2 + 1 - 1)) with (2 * Z.lnot q + 1) by (unfold Z.lnot; lia).
    replace (q * 2 + 1) with (2 * q + 1) by lia. rewrite double_land by lia. rewrite (Z.land_comm (Z.lnot q)), Z.land_lnot_diag. reflexivity.
  - replace (Z.succ k + 1) with (Z.succ (k + 1)) by lia. rewrite !Z.pow_succ_r by lia. set (a := 2 ^ (k + 1)) in *. set (b := 2 ^ k) in *.
    replace (Z.lnot (q * (2 * a) + 2 * b - 1)) with (2 * Z.lnot (q * a + b - 1) + 0) by (unfold Z.lnot; lia).
    replace (q * (2 * a) + 2 * b) with (2 * (q * a + b) + 0) by lia. rewrite double_land by lia. rewrite IH. cbn [Z.land]. lia.
Qed.
Lemma shape p : exists q m, 0 <= q /\ 1 <= m /\ Zpos p = q * 2 ^ (ctzp p + m + 1) + 2 ^ (ctzp p + m) - 2 ^ ctzp p.
Proof.
  assert (O : forall p, exists q m, 0 <= q /\ 1 <= m /\ 2 * Zpos p + 1 = q * 2 ^ (m + 1) + 2 ^ m - 1).
  { clear. induction p as [p IH|p _|].
    - destruct IH as (q & m & Hq & Hm & E). exists q, (m + 1). rewrite Pos2Z.inj_xI. replace (m + 1 + 1) with (Z.succ (m + 1)) by lia. rewrite Z.pow_succ_r by lia.
      replace (2 ^ (m + 1)) with (2 * 2 ^ m) in * by (rewrite Z.pow_add_r, Z.pow_1_r by lia; lia). split; [lia|]. split; [lia|]. rewrite E. lia.
    - exists (Zpos p), 1. rewrite Pos2Z.inj_xO. change (2 ^ (1 + 1)) with 4. change (2 ^ 1) with 2. lia.
    - exists 0, 2. cbn. lia. }
  induction p as [p _|p IH|].
  - destruct (O p) as (q & m & Hq & Hm & E). exists q, m. cbn [ctzp]. rewrite Pos2Z.inj_xI. cbn [Z.add]. change (2 ^ 0) with 1. auto.
  - destruct IH as (q & m & Hq & Hm & E). exists q, m. split; [lia|]. split; [lia|]. cbn [ctzp]. rewrite Pos2Z.inj_xO, E. assert (C := ctzp_nonneg p).
    replace (1 + ctzp p + m + 1) with (Z.succ (ctzp p + m + 1)) by lia. replace (1 + ctzp p + m) with (Z.succ (ctzp p + m)) by lia.
    replace (1 + ctzp p) with (Z.succ (ctzp p)) by lia. rewrite !Z.pow_succ_r by lia. lia.
  - exists 0, 1. cbn. lia.
Qed.
Lemma lor_low e a r : 0 <= e -> 0 <= r < 2 ^ e -> Z.lor (a * 2 ^ e) r = a * 2 ^ e + r.
Proof.
  intros He Hr. assert (D : Z.land (a * 2 ^ e) r = 0).
  { apply bits_ext. intros i Hi. rewrite Z.land_spec, Z.bits_0. destruct (Z_lt_le_dec i e).
    - rewrite Z.mul_pow2_bits_low by lia. reflexivity.
    - rewrite (bit_high e r i) by (assumption || lia). apply andb_false_r. }
  rewrite Z.add_nocarry_lxor by exact D. symmetry. apply Z.lxor_lor. exact D.
Qed.
Lemma next_perm_ok z v : 0 < v < 2 ^ 31 -> exists v', next_perm z v = Done v' /\ v < v' /\ pc v' = pc v /\ (forall w, v < w < v' -> pc w <> pc v).
Proof.
  intros H. destruct v as [|p|p]; try lia. destruct (shape p) as (q & m & Hq & Hm & E). assert (C := ctzp_nonneg p). assert (F := fill p). set (c := ctzp p) in *.
  set (e := c + m) in *. assert (He : c < e) by (subst e; lia). assert (Pe := pow_pos e ltac:(lia)). assert (Pc := pow_pos c C).
  assert (Ce : 2 * 2 ^ c <= 2 ^ e). { rewrite <- Z.pow_succ_r by lia. apply Z.pow_le_mono_r; lia. }
  assert (Pm := pow_pos (m - 1) ltac:(lia)). assert (Cm : 2 ^ (m - 1) <= 2 ^ e) by (apply Z.pow_le_mono_r; lia).
  assert (E1 : 2 ^ (e + 1) = 2 * 2 ^ e) by (rewrite Z.pow_add_r, Z.pow_1_r by lia; lia).
  assert (Pq : 0 <= q * 2 ^ e) by nia.
  set (v := Zpos p) in *. set (t := v + 2 ^ c - 1) in *. assert (T1 : t + 1 = q * 2 ^ (e + 1) + 2 ^ e) by lia. assert (T0 : t = q * 2 ^ (e + 1) + 2 ^ e - 1) by lia.
  assert (Tb : 0 <= t /\ t + 1 < 2 ^ 32). { change (2 ^ 32) with (2 * 2 ^ 31). split; [lia|]. lia. }
  assert (W : within 32 t) by (unfold within; lia).
  assert (W1 : within 32 (t + 1)) by (unfold within; lia).
  assert (M : (v - 1) mod 2 ^ 32 = v - 1) by (apply Z.mod_small; change (2 ^ 32) with (2 * 2 ^ 31); lia).
  assert (N : (- (2 ^ 32 - 1 - t)) mod 2 ^ 32 = t + 1).
  { replace (- (2 ^ 32 - 1 - t)) with (t + 1 + (-1) * 2 ^ 32) by lia. rewrite Z.mod_add by lia. apply Z.mod_small. exact W1. }
  assert (L : Z.land (2 ^ 32 - 1 - t) (t + 1) = 2 ^ e).
  { rewrite <- (lowest_zero e q) by lia. rewrite (negation t 32) by (lia || assumption). rewrite <- T0, <- T1. apply bits_ext. intros i Hi.
    rewrite !Z.land_spec, Z.ldiff_spec, whole_spec, Z.lnot_spec by lia. destruct (Z.ltb_spec i 32); [reflexivity|]. rewrite (bit_high 32 (t + 1) i) by assumption. rewrite !andb_false_r. reflexivity. }
  assert (Le : 2 ^ e <= t + 1) by lia.
  assert (Sh : Z.shiftr (2 ^ e - 1) (c + 1) = 2 ^ (m - 1) - 1).
  { rewrite Z.shiftr_div_pow2 by lia. symmetry. apply (Z.div_unique _ _ _ (2 ^ (c + 1) - 1)); [left; assert (0 < 2 ^ (c + 1)) by (apply pow_pos; lia); lia|].
    replace (2 ^ e) with (2 ^ (c + 1) * 2 ^ (m - 1)) by (rewrite <- Z.pow_add_r by lia; f_equal; lia). lia. }
  exists (t + 1 + (2 ^ (m - 1) - 1)). split.
  { unfold next_perm. rewrite M, F. rewrite N, L. unfold v. cbn [ctz bind]. fold c. rewrite (Z.mod_small (t + 1)) by exact W1. rewrite (Z.mod_small (2 ^ e - 1)) by lia. rewrite Sh.
    replace (t + 1) with ((2 * q + 1) * 2 ^ e) by lia. rewrite lor_low by lia. reflexivity. }
  assert (Pv : pc v = pc q + m).
  { replace v with (q * 2 ^ (e + 1) + (2 ^ m - 1) * 2 ^ c).
    - assert (Pm1 := pow_pos m ltac:(lia)). rewrite pc_split by first [lia | split; [nia|rewrite E1; unfold e; rewrite Z.pow_add_r by lia; nia]]. rewrite pc_shift, pc_ones by lia. lia.
    - rewrite E. fold e. replace (2 ^ e) with (2 ^ m * 2 ^ c) by (unfold e; rewrite Z.pow_add_r by lia; lia). lia. }
  split; [lia|]. split.
  - rewrite Pv. replace (t + 1 + (2 ^ (m - 1) - 1)) with ((2 * q + 1) * 2 ^ e + (2 ^ (m - 1) - 1)) by lia. rewrite pc_split by lia. rewrite pc_odd, pc_ones by lia. lia.
  - intros w Hw. rewrite Pv. destruct (Z_lt_le_dec w (t + 1)) as [Lt|Ge].
    + replace w with (q * 2 ^ (e + 1) + ((2 ^ m - 1) * 2 ^ c + (w - v))).
      * assert (Wv : 0 < w - v < 2 ^ c) by lia. assert (Em : 2 ^ e = 2 ^ m * 2 ^ c) by (unfold e; rewrite Z.pow_add_r by lia; lia). assert (Pm1 := pow_pos m ltac:(lia)).
        rewrite pc_split by first [lia | split; [nia|rewrite E1, Em; nia]]. rewrite pc_split by lia. rewrite pc_ones by lia.
        assert (X := pc_nonneg (w - v)). assert (pc (w - v) <> 0) by (intros Y; apply pc_zero in Y; lia). lia.
      * replace (2 ^ m * 2 ^ c) with (2 ^ e) by (unfold e; rewrite Z.pow_add_r by lia; lia). assert (Em : 2 ^ e = 2 ^ m * 2 ^ c) by (unfold e; rewrite Z.pow_add_r by lia; lia). lia.
    + replace w with ((2 * q + 1) * 2 ^ e + (w - (t + 1))) by lia. rewrite pc_split by lia. rewrite pc_odd by lia. assert (X := pc_small (m - 1) (w - (t + 1)) ltac:(lia) ltac:(lia)). lia.
Qed.

(* the sets that a loop visits *)
Lemma walk_list z bound fuel s : 0 < s < 2 ^ 31 -> bound <= 2 ^ 31 -> 1 <= Z.of_nat fuel -> bound - s <= Z.of_nat fuel -> exists l,
  (forall (T : Type) step (st : T), walk z fuel bound s step st = Done (fold_left (fun st s => step s st) l st)) /\ NoDup l /\
  (forall x, In x l <-> pc x = pc s /\ s <= x /\ (x = s \/ x < bound)).
Proof.
  intros Hs Hb. revert s Hs. induction fuel as [|fuel IH]; intros s Hs H1 H2; [lia|].
  destruct (next_perm_ok z s Hs) as (s' & E & Lt & P & Min). destruct (Z_lt_le_dec s' bound) as [L|L].
  - destruct (IH s' ltac:(lia) ltac:(lia) ltac:(lia)) as (l & A & ND & B). exists (s :: l). split; [|split].
    + intros T step st. cbn [walk]. rewrite E. cbn [bind]. destruct (Z.ltb_spec s' bound); [|lia]. rewrite A. reflexivity.
    + constructor; [|exact ND]. intros X. apply B in X. lia.
    + intros x. cbn [In]. rewrite B, P. split.
      * intros [->|X]; [|lia]. repeat split; try lia.
      * intros (X & Y & X'). destruct (Z.eq_dec x s) as [->|N]; [left; reflexivity|right]. split; [assumption|].
        destruct (Z_lt_le_dec x s'); [|lia]. exfalso. apply (Min x); [lia|assumption].
  - exists [s]. split; [|split].
    + intros T step st. cbn [walk]. rewrite E. cbn [bind]. destruct (Z.ltb_spec s' bound); [lia|]. reflexivity.
    + constructor; [intros []|constructor].
    + intros x. cbn [In]. split.
      * intros [->|[]]. repeat split; lia.
      * intros (X & Y & X'). destruct (Z.eq_dec x s) as [->|N]; [left; reflexivity|exfalso]. apply (Min x); [lia|assumption].
Qed.
Lemma walk_level z n k : 0 <= n < 32 -> 1 <= k <= n -> exists l,
  (forall (T : Type) step (st : T), walk z (turns n) (2 ^ n - 1) (2 ^ k - 1) step st = Done (fold_left (fun st s => step s st) l st)) /\ NoDup l /\
  (forall x, In x l <-> within n x /\ pc x = k).
Proof.
  intros Hn Hk. assert (Pn := pow_pos n ltac:(lia)). assert (K : 2 ^ k <= 2 ^ n) by (apply Z.pow_le_mono_r; lia). assert (N31 : 2 ^ n <= 2 ^ 31) by (apply Z.pow_le_mono_r; lia).
  assert (K1 : 2 <= 2 ^ k) by (change 2 with (2 ^ 1) at 1; apply Z.pow_le_mono_r; lia).
  destruct (walk_list z (2 ^ n - 1) (turns n) (2 ^ k - 1)) as (l & A & ND & B); [lia|lia|unfold turns; lia|unfold turns; lia|].
  exists l. split; [exact A|]. split; [exact ND|]. intros x. rewrite B, pc_ones by lia. unfold within. split; [lia|]. intros [W P].
  assert (Y : 2 ^ k - 1 <= x) by (destruct (Z_lt_le_dec x (2 ^ k - 1)); [|assumption]; assert (Q := pc_small k x ltac:(lia) ltac:(lia)); lia).
  split; [assumption|]. split; [assumption|]. destruct (Z.eq_dec x (2 ^ n - 1)) as [->|N]; [|lia]. rewrite pc_ones in P by lia. left. subst. reflexivity.
Qed.
