(* Random numbers in shaders: proofs. *)
From Coq Require Import NArith ZArith List Lia Bool.
From Verif Require Import Model.GlRandom Spec.GlRandom.
Import ListNotations.
Open Scope N_scope.

Lemma lxor_cancel a b c : N.lxor a c = N.lxor b c -> a = b.
Proof. intro E. rewrite <- (N.lxor_0_r a), <- (N.lxor_0_r b), <- (N.lxor_nilpotent c), <- !N.lxor_assoc, E. reflexivity. Qed.
Lemma lxor_cancel_l a b c : N.lxor c a = N.lxor c b -> a = b.
Proof. rewrite !(N.lxor_comm c). apply lxor_cancel. Qed.
Lemma small_bits a n : a < 2 ^ n <-> forall i, n <= i -> N.testbit a i = false.
Proof.
  split.
  - intros L i I. destruct (N.eq_dec a 0) as [->|N0]; [apply N.bits_0|]. apply N.bits_above_log2. apply N.lt_le_trans with n; [|exact I]. apply N.log2_lt_pow2; lia.
  - intro B. destruct (N.eq_dec a 0) as [->|N0]; [apply N.neq_0_lt_0, N.pow_nonzero; lia|]. apply N.log2_lt_pow2; [lia|].
    destruct (N.lt_ge_cases (N.log2 a) n) as [L|G]; [exact L|]. pose proof (N.bit_log2 a N0) as T. rewrite (B _ G) in T. discriminate.
Qed.
Lemma lxor_small a b n : a < 2 ^ n -> b < 2 ^ n -> N.lxor a b < 2 ^ n.
Proof. rewrite !small_bits. intros A B i I. rewrite N.lxor_spec, A, B by exact I. reflexivity. Qed.
Lemma shiftr_small a k n : a < 2 ^ n -> N.shiftr a k < 2 ^ n.
Proof. rewrite !small_bits. intros A i I. rewrite N.shiftr_spec by lia. apply A. lia. Qed.
Lemma w32_small a : w32 a < 2 ^ 32.
Proof. apply N.mod_lt. discriminate. Qed.
Lemma if_odd_small b m : m < 2 ^ 32 -> if_odd b m < 2 ^ 32.
Proof. unfold if_odd. destruct (N.testbit b 0); [tauto|intros; reflexivity]. Qed.

(* x ^ (x >> k) *)
Lemma xor_right_inj k x y : 0 < k -> N.lxor x (N.shiftr x k) = N.lxor y (N.shiftr y k) -> x = y.
Proof.
  intros K E. apply N.lxor_eq. set (z := N.lxor x y).
  assert (Z : N.shiftr z k = z).
  { unfold z. rewrite N.shiftr_lxor. apply (lxor_cancel _ _ (N.lxor x (N.shiftr x k))). rewrite E at 1. apply N.bits_inj. intro i. rewrite !N.lxor_spec.
    pose proof (f_equal (fun v => N.testbit v i) E) as Ei. cbn beta in Ei. rewrite !N.lxor_spec in Ei.
    destruct (N.testbit x i), (N.testbit y i), (N.testbit (N.shiftr x k) i), (N.testbit (N.shiftr y k) i); cbn in *; congruence. }
  rewrite N.shiftr_div_pow2 in Z. destruct (N.eq_dec z 0) as [->|N0]; [reflexivity|].
  assert (P : 1 < 2 ^ k) by (apply N.pow_gt_1; lia). pose proof (N.div_lt z (2 ^ k) ltac:(lia) P). lia.
Qed.
(* x ^ (x << 1) on 32 bits *)
Lemma xor_left_inj x y : x < 2 ^ 32 -> y < 2 ^ 32 -> N.lxor x (shl x 1) = N.lxor y (shl y 1) -> x = y.
Proof.
  intros X Y E. apply N.lxor_eq. apply N.bits_inj. intro i. rewrite N.bits_0.
  assert (A : forall j, j < 32 -> N.testbit (N.lxor x y) j = false).
  { assert (SH : forall v j, j < 32 -> N.testbit (shl v 1) (N.succ j) = (if N.succ j <? 32 then N.testbit v j else false)).
    { intros v j J. unfold shl, w32. destruct (N.ltb_spec (N.succ j) 32) as [L|L].
      - rewrite N.mod_pow2_bits_low by exact L. rewrite N.shiftl_spec_high' by lia. f_equal. lia.
      - apply N.mod_pow2_bits_high. exact L. }
    intro j. pattern j. apply N.peano_ind; clear j.
    - intros _. pose proof (f_equal (fun v => N.testbit v 0) E) as E0. cbn beta in E0. rewrite !N.lxor_spec in *.
      assert (S0 : forall v, N.testbit (shl v 1) 0 = false) by (intro v; unfold shl, w32; rewrite N.mod_pow2_bits_low by lia; apply N.shiftl_spec_low; lia). rewrite !S0 in E0. rewrite !xorb_false_r in E0. rewrite E0. apply xorb_nilpotent.
    - intros j IH J. pose proof (f_equal (fun v => N.testbit v (N.succ j)) E) as Ei. cbn beta in Ei. rewrite !N.lxor_spec in *. specialize (IH ltac:(lia)).
      rewrite !SH in Ei by lia. rewrite (proj2 (N.ltb_lt _ _) J) in Ei. destruct (N.testbit x j), (N.testbit y j), (N.testbit x (N.succ j)), (N.testbit y (N.succ j)); cbn in *; congruence. }
  destruct (N.lt_ge_cases i 32) as [L|G]; [apply A; exact L|]. exact (proj1 (small_bits _ 32) (lxor_small x y 32 X Y) i G).
Qed.
Lemma odd_inj c c' x y : c * c' mod 2 ^ 32 = 1 -> x < 2 ^ 32 -> y < 2 ^ 32 -> w32 (c * x) = w32 (c * y) -> x = y.
Proof.
  intros I X Y E. unfold w32 in E.
  assert (A : forall v, v < 2 ^ 32 -> ((c * v) mod 2 ^ 32 * c') mod 2 ^ 32 = v).
  { intros v V. rewrite N.mul_mod_idemp_l by discriminate. replace (c * v * c') with (c * c' * v) by ring. rewrite <- N.mul_mod_idemp_l by discriminate. rewrite I, N.mul_1_l. apply N.mod_small. exact V. }
  rewrite <- (A x X), <- (A y Y), E. reflexivity.
Qed.
Lemma add_shl x k : w32 (x + shl x k) = w32 ((1 + 2 ^ k) * x).
Proof. unfold shl, w32. rewrite N.add_mod_idemp_r by discriminate. rewrite N.shiftl_mul_pow2. f_equal. ring. Qed.
Lemma add_inj k c' x y : (1 + 2 ^ k) * c' mod 2 ^ 32 = 1 -> x < 2 ^ 32 -> y < 2 ^ 32 -> w32 (x + shl x k) = w32 (y + shl y k) -> x = y.
Proof. intros I X Y. rewrite !add_shl. apply (odd_inj _ c'); assumption. Qed.

Lemma urand_small x : urand x < 2 ^ 32.
Proof. apply w32_small. Qed.
Lemma urand_inj x y : x < 2 ^ 32 -> y < 2 ^ 32 -> urand x = urand y -> x = y.
Proof.
  intros X Y E. unfold urand in E. cbv zeta in E.
  set (a := w32 (x + shl x 10)) in E. set (a' := w32 (y + shl y 10)) in E. set (b := N.lxor a (N.shiftr a 6)) in E. set (b' := N.lxor a' (N.shiftr a' 6)) in E.
  set (c := w32 (b + shl b 3)) in E. set (c' := w32 (b' + shl b' 3)) in E. set (d := N.lxor c (N.shiftr c 11)) in E. set (d' := N.lxor c' (N.shiftr c' 11)) in E.
  assert (XS : forall v k, v < 2 ^ 32 -> N.lxor v (N.shiftr v k) < 2 ^ 32) by (intros v k V; apply lxor_small; [exact V|apply shiftr_small; exact V]).
  apply (add_inj 10 3222273025); [reflexivity|exact X|exact Y|]. fold a a'. apply (xor_right_inj 6); [reflexivity|]. fold b b'.
  apply (add_inj 3 954437177); [reflexivity|apply XS, w32_small|apply XS, w32_small|]. fold c c'. apply (xor_right_inj 11); [reflexivity|]. fold d d'.
  apply (add_inj 15 1073709057); [reflexivity|apply XS, w32_small|apply XS, w32_small|exact E].
Qed.
Lemma urand_zero : urand 0 = 0.
Proof. reflexivity. Qed.
Lemma urand_iter_zero n x : x < 2 ^ 32 -> N.iter n urand x = 0 -> x = 0.
Proof.
  intros X E. revert E. pattern n. apply N.peano_ind; clear n.
  - intro E. exact E.
  - intros n IH E. rewrite N.iter_succ in E. apply IH. apply urand_inj; [|reflexivity|rewrite E; reflexivity].
    clear IH E. pattern n. apply N.peano_ind; [exact X|]. intros m _. rewrite N.iter_succ. apply urand_small.
Qed.

(* the twister *)
Lemma low31_mod a : N.land a low31 = a mod 2147483648.
Proof. change low31 with (N.ones 31). rewrite N.land_ones. reflexivity. Qed.
Section Generator.
Variable g : params.
Hypothesis G : sized g.
Lemma next_words p : words p -> words (next_state g p).
Proof.
  intros (A & B & C & D). change 4294967296 with (2 ^ 32) in *. unfold words, next_state. cbn [s0 s1 s2 s3]. change 4294967296 with (2 ^ 32).
  assert (L : N.land (s0 p) low31 < 2 ^ 32). { rewrite low31_mod. apply N.lt_trans with 2147483648; [apply N.mod_lt; discriminate|reflexivity]. }
  assert (Xs : N.lxor (N.lxor (N.land (s0 p) low31) (s1 p)) (s2 p) < 2 ^ 32) by (repeat apply lxor_small; assumption).
  assert (X : N.lxor (N.lxor (N.lxor (N.land (s0 p) low31) (s1 p)) (s2 p)) (shl (N.lxor (N.lxor (N.land (s0 p) low31) (s1 p)) (s2 p)) 1) < 2 ^ 32) by (apply lxor_small; [exact Xs|apply w32_small]).
  repeat split.
  - exact B.
  - apply lxor_small; [exact C|apply if_odd_small; apply G].
  - apply lxor_small; [apply lxor_small; [exact X|apply w32_small]|apply if_odd_small; apply G].
  - apply lxor_small; [exact D|apply lxor_small; [apply shiftr_small; exact D|exact X]].
Qed.
Lemma next_inj p q : words p -> words q -> same_bits (next_state g p) (next_state g q) -> same_bits p q.
Proof.
  intros (A & B & C & D) (A' & B' & C' & D') (E0 & E1 & E2 & E3). change 4294967296 with (2 ^ 32) in *. unfold next_state in *. cbn [s0 s1 s2 s3] in *. rewrite <- !low31_mod in E0.
  set (x0 := N.lxor (N.lxor (N.land (s0 p) low31) (s1 p)) (s2 p)) in *. set (x0' := N.lxor (N.lxor (N.land (s0 q) low31) (s1 q)) (s2 q)) in *.
  set (x := N.lxor x0 (shl x0 1)) in *. set (x' := N.lxor x0' (shl x0' 1)) in *.
  set (y := N.lxor (s3 p) (N.lxor (N.shiftr (s3 p) 1) x)) in *. set (y' := N.lxor (s3 q) (N.lxor (N.shiftr (s3 q) 1) x')) in *.
  rewrite <- E3 in E1, E2. apply lxor_cancel in E1. apply lxor_cancel in E2. apply lxor_cancel in E2.
  assert (L : forall v, N.land v low31 < 2 ^ 32). { intro v. rewrite low31_mod. apply N.lt_trans with 2147483648; [apply N.mod_lt; discriminate|reflexivity]. }
  assert (X : x0 = x0'). { apply xor_left_inj; [unfold x0; repeat apply lxor_small; try assumption; apply L|unfold x0'; repeat apply lxor_small; try assumption; apply L|exact E2]. }
  assert (Y : s3 p = s3 q). { unfold y, y' in E3. rewrite <- !N.lxor_assoc in E3. rewrite E2 in E3. apply lxor_cancel in E3. apply (xor_right_inj 1); [reflexivity|exact E3]. }
  assert (XX : N.lxor (N.land (s0 p) low31) (s1 p) = N.lxor (N.land (s0 q) low31) (s1 q)). { unfold x0, x0' in X. rewrite E1 in X. apply lxor_cancel in X. exact X. }
  assert (LB : forall v i, N.testbit (N.land v low31) i = N.testbit v i && (i <? 31)).
  { intros v i. change low31 with (N.ones 31). rewrite N.land_spec. f_equal. destruct (N.ltb_spec i 31); [apply N.ones_spec_low|apply N.ones_spec_high]; assumption. }
  assert (S1 : s1 p = s1 q).
  { apply N.bits_inj. intro i. destruct (N.lt_ge_cases i 31) as [I|I].
    - pose proof (f_equal (fun v => N.testbit v i) E0) as T. cbn beta in T. rewrite !LB, (proj2 (N.ltb_lt _ _) I), !andb_true_r in T. exact T.
    - pose proof (f_equal (fun v => N.testbit v i) XX) as T. cbn beta in T. rewrite !N.lxor_spec, !LB, (proj2 (N.ltb_ge _ _) I), !andb_false_r, !xorb_false_l in T. exact T. }
  split; [|split; [exact S1|split; [exact E1|exact Y]]].
  rewrite <- !low31_mod. rewrite S1 in XX. apply lxor_cancel in XX. exact XX.
Qed.
Definition zero : status := {| s0 := 0; s1 := 0; s2 := 0; s3 := 0 |}.
Lemma stuck_zero p : stuck p <-> same_bits p zero.
Proof. unfold stuck, same_bits. cbn [zero s0 s1 s2 s3]. rewrite N.mod_0_l by discriminate. tauto. Qed.
Lemma next_same p q : same_bits p q -> same_bits (next_state g p) (next_state g q).
Proof. intros (A & B & C & D). unfold next_state, same_bits. cbn [s0 s1 s2 s3]. rewrite !low31_mod, A, B, C, D. repeat split; reflexivity. Qed.
Lemma iter_words n p : words p -> words (N.iter n (next_state g) p).
Proof. intro W. pattern n. apply N.peano_ind; [exact W|]. intros m IH. rewrite N.iter_succ. apply next_words. exact IH. Qed.
Lemma iter_inj n p q : words p -> words q -> same_bits (N.iter n (next_state g) p) (N.iter n (next_state g) q) -> same_bits p q.
Proof.
  intros W W'. pattern n. apply N.peano_ind; [tauto|]. intros m IH E. rewrite !N.iter_succ in E. apply IH. apply next_inj; [apply iter_words; exact W|apply iter_words; exact W'|exact E].
Qed.
Lemma iter_zero n : N.iter n (next_state g) zero = zero.
Proof. pattern n. apply N.peano_ind; [reflexivity|]. intros m IH. rewrite N.iter_succ, IH. reflexivity. Qed.
Lemma zero_words : words zero.
Proof. repeat split; reflexivity. Qed.
Lemma stuck_only n p : words p -> stuck (N.iter n (next_state g) p) <-> stuck p.
Proof.
  intro W. rewrite !stuck_zero. split.
  - intro S. apply (iter_inj n p zero W zero_words). rewrite iter_zero. exact S.
  - intro S. pattern n. apply N.peano_ind; [exact S|]. intros m IH. rewrite N.iter_succ. change zero with (next_state g zero). apply next_same. exact IH.
Qed.

(* seeding *)
Lemma spread_small l v : spread l v < 2 ^ 32.
Proof. apply w32_small. Qed.
Lemma spread_inj l x y : l < 2 ^ 32 -> x < 2 ^ 32 -> y < 2 ^ 32 -> spread l x = spread l y -> x = y.
Proof.
  intros L X Y E. unfold spread in E. set (m := w32 (1812433253 * N.lxor x (N.shiftr x 30))) in E. set (m' := w32 (1812433253 * N.lxor y (N.shiftr y 30))) in E.
  assert (M : m = m'). { pose proof (w32_small (1812433253 * N.lxor x (N.shiftr x 30))) as A. pose proof (w32_small (1812433253 * N.lxor y (N.shiftr y 30))) as B. fold m in A. fold m' in B. unfold w32 in E. change (2 ^ 32) with 4294967296 in *.
    pose proof (N.div_mod (l + m) 4294967296 ltac:(discriminate)). pose proof (N.div_mod (l + m') 4294967296 ltac:(discriminate)). rewrite E in H. lia. }
  apply (xor_right_inj 30); [reflexivity|]. apply (odd_inj 1812433253 2520285293); [reflexivity| | |exact M]; apply lxor_small; try assumption; apply shiftr_small; assumption.
Qed.
Lemma seeded_eq r : let a := N.lxor (mat1 g) (spread 1 r) in let b := N.lxor (mat2 g) (spread 2 a) in let c := N.lxor (tmat g) (spread 3 b) in let d := N.lxor r (spread 4 c) in
  let a2 := N.lxor a (spread 5 d) in let b2 := N.lxor b (spread 6 a2) in let c2 := N.lxor c (spread 7 b2) in seeded g r = {| s0 := d; s1 := a2; s2 := b2; s3 := c2 |}.
Proof. reflexivity. Qed.
Lemma seeded_words r : r < 2 ^ 32 -> words (seeded g r).
Proof.
  intro R. rewrite seeded_eq. cbv zeta. unfold words. cbn [s0 s1 s2 s3]. change 4294967296 with (2 ^ 32).
  repeat split; repeat (apply lxor_small; [|apply spread_small]); try exact R; apply G.
Qed.
Lemma seeded_inj r r' : r < 2 ^ 32 -> r' < 2 ^ 32 -> same_bits (seeded g r) (seeded g r') -> r = r'.
Proof.
  intros R R'. rewrite !seeded_eq. cbv zeta. intros (_ & E1 & E2 & E3). cbn [s0 s1 s2 s3] in *. rewrite E1 in E2. apply lxor_cancel in E2. apply lxor_cancel_l in E2.
  apply (spread_inj 2) in E2; [|reflexivity|apply lxor_small; [apply G|apply spread_small]|apply lxor_small; [apply G|apply spread_small]].
  apply lxor_cancel_l in E2. apply (spread_inj 1) in E2; [exact E2|reflexivity|exact R|exact R'].
Qed.
Lemma after_iter r n : after g r n = N.iter (n + 8) (next_state g) (seeded g r).
Proof. unfold after, initial. rewrite N.iter_add. reflexivity. Qed.
Lemma distinct r r' n : r < 2 ^ 32 -> r' < 2 ^ 32 -> same_bits (after g r n) (after g r' n) -> r = r'.
Proof. intros R R' E. rewrite !after_iter in E. apply seeded_inj; [exact R|exact R'|]. apply (iter_inj (n + 8)); [apply seeded_words; exact R|apply seeded_words; exact R'|exact E]. Qed.
End Generator.
Lemma litiv_sized : sized litiv.
Proof. repeat split; reflexivity. Qed.
Lemma seeded_alive r : ~ stuck (seeded litiv r).
Proof.
  rewrite seeded_eq. cbv zeta. intros (_ & E1 & E2 & E3). cbn [s0 s1 s2 s3] in *. rewrite E2 in E3. rewrite E1 in E2. apply N.lxor_eq in E2. apply N.lxor_eq in E3. rewrite E2 in E3. vm_compute in E3. discriminate.
Qed.
Lemma never_stuck r n : r < 2 ^ 32 -> ~ stuck (after litiv r n).
Proof. intros R S. rewrite after_iter in S. apply stuck_only in S; [|exact litiv_sized|apply seeded_words; [exact litiv_sized|exact R]]. exact (seeded_alive r S). Qed.

(* an injective map returns to where it started *)
Lemma dup_or_not (f : nat -> N) n : NoDup (map f (seq 0 n)) \/ exists i j, (i < j < n)%nat /\ f i = f j.
Proof.
  induction n as [|n [D|(i & j & I & E)]]; [left; constructor| |right; exists i, j; split; [lia|exact E]].
  destruct (in_dec N.eq_dec (f n) (map f (seq 0 n))) as [I|I].
  - right. apply in_map_iff in I. destruct I as (i & E & I). apply in_seq in I. exists i, n. split; [lia|exact E].
  - left. rewrite seq_S, map_app. cbn [map Nat.add]. apply NoDup_Add with (a := f n) (l := map f (seq 0 n)); [|split; assumption]. pose proof (Add_app (f n) (map f (seq 0 n)) []) as A. rewrite app_nil_r in A. exact A.
Qed.
Lemma repeats (b : N) (f : nat -> N) : (forall i, f i < b) -> exists i j, (i < j)%nat /\ f i = f j.
Proof.
  intro B. destruct (dup_or_not f (S (N.to_nat b))) as [D|(i & j & I & E)]; [|exists i, j; split; [lia|exact E]]. exfalso.
  assert (L : incl (map f (seq 0 (S (N.to_nat b)))) (map N.of_nat (seq 0 (N.to_nat b)))).
  { intros x X. apply in_map_iff in X. destruct X as (i & <- & _). apply in_map_iff. exists (N.to_nat (f i)). split; [apply N2Nat.id|]. apply in_seq. specialize (B i). lia. }
  apply NoDup_incl_length in L; [|exact D]. rewrite !map_length, !seq_length in L. lia.
Qed.
Lemma iter_add_N {A} (f : A -> A) a b x : N.iter (a + b) f x = N.iter a f (N.iter b f x).
Proof. apply N.iter_add. Qed.
Lemma urand_iter_small n x : x < 2 ^ 32 -> N.iter n urand x < 2 ^ 32.
Proof. intro X. pattern n. apply N.peano_ind; [exact X|]. intros m _. rewrite N.iter_succ. apply urand_small. Qed.
Lemma urand_iter_inj n x y : x < 2 ^ 32 -> y < 2 ^ 32 -> N.iter n urand x = N.iter n urand y -> x = y.
Proof.
  intros X Y. pattern n. apply N.peano_ind; [tauto|]. intros m IH E. rewrite !N.iter_succ in E. apply IH. apply urand_inj; [apply urand_iter_small; exact X|apply urand_iter_small; exact Y|exact E].
Qed.
Lemma urand_returns x : x < 2 ^ 32 -> exists n, 0 < n /\ N.iter n urand x = x.
Proof.
  intro X. destruct (repeats (2 ^ 32) (fun i => N.iter (N.of_nat i) urand x)) as (i & j & I & E); [intro i; apply urand_iter_small; exact X|]. cbn beta in E.
  exists (N.of_nat (j - i)). split; [lia|]. apply (urand_iter_inj (N.of_nat i)); [apply urand_iter_small; exact X|exact X|]. rewrite <- iter_add_N. replace (N.of_nat i + N.of_nat (j - i)) with (N.of_nat j) by lia. symmetry. exact E.
Qed.
Definition packed (p : status) : N := s0 p mod 2147483648 + 2147483648 * (s1 p + 4294967296 * (s2 p + 4294967296 * s3 p)).
Lemma packed_small p : words p -> packed p < 2 ^ 127.
Proof.
  intros (_ & B & C & D). unfold packed. pose proof (N.mod_lt (s0 p) 2147483648 ltac:(discriminate)). change (2 ^ 127) with (2147483648 * (4294967296 * (4294967296 * 4294967296))). lia.
Qed.
Lemma packed_inj p q : words p -> words q -> packed p = packed q -> same_bits p q.
Proof.
  intros (_ & B & C & D) (_ & B' & C' & D') E. unfold packed in E. pose proof (N.mod_lt (s0 p) 2147483648 ltac:(discriminate)). pose proof (N.mod_lt (s0 q) 2147483648 ltac:(discriminate)).
  destruct (N.div_mod_unique 2147483648 (s1 p + 4294967296 * (s2 p + 4294967296 * s3 p)) (s1 q + 4294967296 * (s2 q + 4294967296 * s3 q)) (s0 p mod 2147483648) (s0 q mod 2147483648)) as (E1 & E0); [assumption|assumption|lia|].
  destruct (N.div_mod_unique 4294967296 (s2 p + 4294967296 * s3 p) (s2 q + 4294967296 * s3 q) (s1 p) (s1 q)) as (E2 & F1); [assumption|assumption|lia|].
  destruct (N.div_mod_unique 4294967296 (s3 p) (s3 q) (s2 p) (s2 q)) as (E3 & F2); [assumption|assumption|lia|].
  repeat split; assumption.
Qed.
Section Drawn.
Variable g : params.
Hypothesis G : sized g.
Lemma returns p : words p -> exists n, 0 < n /\ same_bits (N.iter n (next_state g) p) p.
Proof.
  intro W. destruct (repeats (2 ^ 127) (fun i => packed (N.iter (N.of_nat i) (next_state g) p))) as (i & j & I & E); [intro i; apply packed_small, iter_words; assumption|]. cbn beta in E.
  exists (N.of_nat (j - i)). split; [lia|]. apply (iter_inj g G (N.of_nat i)); [apply iter_words; assumption|exact W|]. rewrite <- iter_add_N. replace (N.of_nat i + N.of_nat (j - i)) with (N.of_nat j) by lia.
  apply packed_inj; [apply iter_words; assumption|apply iter_words; assumption|]. symmetry. exact E.
Qed.
Lemma iter_same n p q : same_bits p q -> same_bits (N.iter n (next_state g) p) (N.iter n (next_state g) q).
Proof. intro E. pattern n. apply N.peano_ind; [exact E|]. intros m IH. rewrite !N.iter_succ. apply next_same. exact IH. Qed.
Lemma next_equal p q : same_bits p q -> next_state g p = next_state g q.
Proof. intros (A & B & C & D). unfold next_state. rewrite !low31_mod, A, B, C, D. reflexivity. Qed.
Lemma drawn_same p q : same_bits p q -> fst (tiny_urand g p) = fst (tiny_urand g q).
Proof. intro E. unfold tiny_urand. rewrite (next_equal p q E). reflexivity. Qed.
Lemma after_words r n : r < 2 ^ 32 -> words (after g r n).
Proof. intro R. rewrite after_iter. apply iter_words; [exact G|]. apply seeded_words; assumption. Qed.
Lemma periodic r : r < 2 ^ 32 -> exists n, 0 < n /\ forall k, drawn g r (k + n) = drawn g r k.
Proof.
  intro R. destruct (returns (initial g r)) as (n & N0 & E); [unfold initial; apply iter_words; [exact G|apply seeded_words; assumption]|]. exists n. split; [exact N0|]. intro k. unfold drawn, after. rewrite iter_add_N. apply drawn_same, iter_same. exact E.
Qed.
Lemma drawn_small r n : r < 2 ^ 32 -> drawn g r n < 2 ^ 32.
Proof.
  intro R. pose proof (next_words g G _ (after_words r n R)) as (A & B & C & D). unfold drawn, tiny_urand, tempered. cbn [fst]. apply lxor_small; [apply lxor_small; [exact D|apply w32_small]|apply if_odd_small, G].
Qed.
End Drawn.
Lemma stuck_draws g p n : words p -> stuck p -> fst (tiny_urand g (N.iter n (next_state g) p)) = 0.
Proof. intros W S. apply stuck_zero in S. rewrite (drawn_same g _ zero); [reflexivity|]. rewrite <- (iter_zero g n). apply iter_same. exact S. Qed.

(* neighbours *)
Lemma neighbour_iff border width height p q : (exists r, r < 2 ^ 32 /\ rand_neighbour border width height p r = q) <-> around p q.
Proof.
  assert (R : forall k, (k < 8)%nat -> N.to_nat (N.of_nat k mod 8) = k) by (intros k K; rewrite N.mod_small by lia; apply Nat2N.id).
  split.
  - intros (r & _ & <-). unfold rand_neighbour. assert (L : (N.to_nat (r mod 8) < 8)%nat) by (pose proof (N.mod_lt r 8 ltac:(discriminate)); lia). revert L. generalize (N.to_nat (r mod 8)) as k. intros k K.
    destruct p as [x y]. unfold around. cbn [fst snd]. do 8 (destruct k as [|k]; [cbn [nth neighbours fst snd]; rewrite pair_equal_spec; lia|]). lia.
  - destruct p as [x y], q as [u v]. intros (D & A & B). cbn [fst snd] in *.
    assert (C : exists k, (k < 8)%nat /\ nth k neighbours (0, 0)%Z = (u - x, v - y)%Z).
    { assert (U : (u - x = -1 \/ u - x = 0 \/ u - x = 1)%Z) by lia. assert (V : (v - y = -1 \/ v - y = 0 \/ v - y = 1)%Z) by lia.
      assert (NE : ~ (u - x = 0 /\ v - y = 0)%Z) by (intros [U0 V0]; apply D; f_equal; lia).
      destruct U as [U|[U|U]], V as [V|[V|V]]; rewrite U, V;
        first [exfalso; lia|exists 0%nat; split; [lia|reflexivity]|exists 1%nat; split; [lia|reflexivity]|exists 2%nat; split; [lia|reflexivity]|exists 3%nat; split; [lia|reflexivity]
          |exists 4%nat; split; [lia|reflexivity]|exists 5%nat; split; [lia|reflexivity]|exists 6%nat; split; [lia|reflexivity]|exists 7%nat; split; [lia|reflexivity]]. }
    destruct C as (k & K & C). exists (N.of_nat k). split; [change (2 ^ 32) with 4294967296; lia|]. unfold rand_neighbour. rewrite (R k K), C. cbn [fst snd]. f_equal; lia.
Qed.
Lemma neighbour_mod border width height p r r' : rand_neighbour border width height p r = rand_neighbour border width height p r' <-> r mod 8 = r' mod 8.
Proof.
  unfold rand_neighbour. split; [|intros ->; reflexivity]. intro E. apply N2Nat.inj. pose proof (N.mod_lt r 8 ltac:(discriminate)) as L. pose proof (N.mod_lt r' 8 ltac:(discriminate)) as L'.
  assert (K : (N.to_nat (r mod 8) < 8)%nat) by lia. assert (K' : (N.to_nat (r' mod 8) < 8)%nat) by lia. clear L L'. revert E K K'. generalize (N.to_nat (r mod 8)), (N.to_nat (r' mod 8)). intros k k' E K K'.
  rewrite pair_equal_spec in E. do 8 (destruct k as [|k]; [do 8 (destruct k' as [|k']; [first [reflexivity|exfalso; cbn [nth neighbours fst snd] in E; lia]|]); lia|]). lia.
Qed.
Lemma leaves border width height : (0 <= border)%Z -> (2 * border < width)%Z -> (2 * border < height)%Z -> exists p r, inside border width height p /\ r < 2 ^ 32 /\ ~ inside border width height (rand_neighbour border width height p r).
Proof.
  intros B W H. exists (border, border), 3. split; [unfold inside; cbn [fst snd]; lia|]. split; [reflexivity|]. intros ((L & _) & _). unfold rand_neighbour in L. change (border <= border + -1)%Z in L. lia.
Qed.
