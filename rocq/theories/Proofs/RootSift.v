(* rootSIFT and sparseness. *)
From Coq Require Import ZArith Reals List Lia Lra Permutation.
From Verif Require Import Model.RootSift Spec.RootSift.
Import ListNotations.
Open Scope R_scope.

Lemma eps_pos : 0 < eps.
Proof. unfold eps. apply Rinv_0_lt_compat. lra. Qed.
Lemma fold_total (f : R -> R) v : forall a, fold_left (fun s x => s + f x) v a = a + total (map f v).
Proof. induction v as [|x v IH]; intros a; cbn; [ lra | rewrite IH; lra ]. Qed.
Lemma total_nonneg v : (forall x, In x v -> 0 <= x) -> 0 <= total v.
Proof. induction v as [|x v IH]; intros H; cbn; [ lra | ]. assert (A := H x (or_introl eq_refl)). assert (B := IH (fun y Y => H y (or_intror Y))). lra. Qed.
Lemma total_zero v : (forall x, In x v -> 0 <= x) -> total v = 0 -> zero v.
Proof.
  induction v as [|x v IH]; intros H Z y Y; cbn in *; [ contradiction | ]. assert (A := H x (or_introl eq_refl)).
  assert (B := total_nonneg v (fun z W => H z (or_intror W))). destruct Y as [<-|Y]; [ lra | ]. apply IH; [ intros; apply H; right; assumption | lra | exact Y ].
Qed.
Lemma total_scale k v : total (map (fun x => k * x) v) = k * total v.
Proof. induction v as [|x v IH]; cbn; [ lra | rewrite IH; lra ]. Qed.
Lemma total_perm v w : Permutation v w -> total v = total w.
Proof. induction 1; cbn; lra. Qed.
Lemma total_ext {A} (f g : A -> R) v : (forall x, In x v -> f x = g x) -> total (map f v) = total (map g v).
Proof. intros H. f_equal. apply map_ext_in, H. Qed.
Lemma magnitude_nonneg v : 0 <= magnitude v.
Proof. apply total_nonneg. intros x X. apply in_map_iff in X as (y & <- & _). apply Rabs_pos. Qed.
Lemma energy_nonneg v : 0 <= energy v.
Proof. apply total_nonneg. intros x X. apply in_map_iff in X as (y & <- & _). apply Rle_0_sqr. Qed.
Lemma magnitude_total v : (forall x, In x v -> 0 <= x) -> magnitude v = total v.
Proof. intros H. unfold magnitude. rewrite <- (map_id v) at 2. apply total_ext. intros x X. apply Rabs_right, Rle_ge, H, X. Qed.

(* ---- rootSIFT ---- *)
Definition rt (norm x : R) : R := if Rlt_dec x 0 then - sqrt (- x / norm) else sqrt (x / norm).
Lemma all_some_map {A} (f : A -> option R) (g : A -> R) v : (forall x, In x v -> f x = Some (g x)) -> all_some (map f v) = Some (map g v).
Proof. induction v as [|x v IH]; intros H; cbn; [ reflexivity | ]. rewrite (H x (or_introl eq_refl)), IH by (intros; apply H; right; assumption). reflexivity. Qed.
Lemma all_some_none {A} (f : A -> option R) v : all_some (map f v) = None <-> exists x, In x v /\ f x = None.
Proof.
  induction v as [|x v IH]; cbn; [ split; [ discriminate | intros (x & [] & _) ] | ]. destruct (f x) eqn:E.
  - destruct (all_some (map f v)) eqn:AS.
    + split; [ discriminate | ]. intros (y & [<-|Y] & F); [ congruence | ]. assert (B : Some l = None) by (apply IH; exists y; split; assumption). discriminate.
    + split; [ | reflexivity ]. intros _. destruct (proj1 IH eq_refl) as (y & Y & F). exists y. split; [ right; exact Y | exact F ].
  - split; [ intros _; exists x; split; [ left; reflexivity | exact E ] | reflexivity ].
Qed.
Lemma l1_neg v : l1 true v = magnitude v + eps.
Proof. unfold l1. rewrite (fold_total Rabs). unfold magnitude. lra. Qed.
Lemma l1_pos v : l1 false v = total v + eps.
Proof. unfold l1. rewrite (fold_total (fun x => x)), map_id. lra. Qed.
Lemma div_nonneg x n : 0 < n -> 0 <= x -> 0 <= x / n.
Proof. intros N X. apply Rmult_le_pos; [ exact X | ]. apply Rlt_le, Rinv_0_lt_compat, N. Qed.
Lemma root_neg norm x : 0 < norm -> root true norm x = Some (rt norm x).
Proof.
  intros N. unfold root, rt. destruct (Req_EM_T norm 0); [ lra | ]. destruct (Rlt_dec x 0) as [L|L]; cbn; [ reflexivity | ].
  assert (A := div_nonneg x norm N ltac:(lra)). destruct (Rlt_dec (x / norm) 0); [ lra | reflexivity ].
Qed.
Lemma root_pos norm x : 0 < norm -> 0 <= x -> root false norm x = Some (rt norm x).
Proof.
  intros N X. unfold root, rt. destruct (Req_EM_T norm 0); [ lra | ]. cbn. assert (A := div_nonneg x norm N X). destruct (Rlt_dec (x / norm) 0); [ lra | ].
  destruct (Rlt_dec x 0); [ lra | reflexivity ].
Qed.
Definition accepted (neg : bool) (v : list R) : Prop := neg = true \/ forall x, In x v -> 0 <= x.
Lemma norm_pos v : 0 < magnitude v + eps.
Proof. assert (A := magnitude_nonneg v). assert (B := eps_pos). lra. Qed.
Lemma roots neg v : accepted neg v -> all_some (map (root neg (l1 neg v)) v) = Some (map (rt (magnitude v + eps)) v).
Proof.
  intros H. assert (N := norm_pos v). destruct neg.
  - rewrite l1_neg. apply all_some_map. intros. apply root_neg, N.
  - destruct H as [|H]; [ discriminate | ]. rewrite l1_pos. rewrite <- (magnitude_total v H). apply all_some_map. intros x X. apply root_pos; [ exact N | apply H, X ].
Qed.
Lemma rt_sqr n x : 0 < n -> rt n x * rt n x = Rabs x / n.
Proof.
  intros N. unfold rt. destruct (Rlt_dec x 0) as [L|L].
  - rewrite Rabs_left by exact L. rewrite <- (sqrt_def (- x / n)) at 3; [ lra | ]. apply div_nonneg; lra.
  - rewrite Rabs_right by lra. apply sqrt_def, div_nonneg; lra.
Qed.
Lemma rt_sign n x : 0 < n -> same_sign x (rt n x).
Proof.
  intros N. unfold rt, same_sign. destruct (Rlt_dec x 0) as [L|L].
  - assert (A : 0 < sqrt (- x / n)) by (apply sqrt_lt_R0, Rdiv_lt_0_compat; lra). split; split; intros; lra.
  - assert (A := sqrt_pos (x / n)). split; split; intros; try lra.
    + apply sqrt_lt_R0, Rdiv_lt_0_compat; lra.
    + destruct (Req_dec x 0) as [ -> | ]; [ | lra ]. unfold Rdiv in H. rewrite Rmult_0_l, sqrt_0 in H. lra.
Qed.
Lemma energy_rt v n : 0 < n -> energy (map (rt n) v) = magnitude v / n.
Proof.
  intros N. unfold energy, magnitude. rewrite map_map. unfold Rdiv. rewrite Rmult_comm, <- total_scale, map_map. apply total_ext. intros x _. rewrite rt_sqr by exact N. unfold Rdiv. lra.
Qed.
Lemma root_claim neg v : accepted neg v -> exists w, rootSIFT false neg v = Some w /\
  Forall2 (fun x y => y * y = Rabs x / (magnitude v + eps) /\ same_sign x y) v w /\ energy w = magnitude v / (magnitude v + eps).
Proof.
  intros H. assert (N := norm_pos v). exists (map (rt (magnitude v + eps)) v). unfold rootSIFT. rewrite roots by exact H. split; [ reflexivity | ].
  split; [ | apply energy_rt, N ]. generalize (magnitude v + eps) N. intros n P. clear - P. induction v; cbn; constructor; auto. split; [ apply rt_sqr, P | apply rt_sign, P ].
Qed.
Lemma l2_energy w : l2 w = sqrt (energy w) + eps.
Proof. unfold l2. rewrite (fold_total (fun x => x * x)), Rplus_0_l. reflexivity. Qed.
Lemma energy_scale k w : energy (map (fun x => k * x) w) = k * k * energy w.
Proof. unfold energy. rewrite map_map, <- total_scale, map_map. apply total_ext. intros; lra. Qed.
Lemma l2_claim neg v : accepted neg v -> exists w z, rootSIFT false neg v = Some w /\ rootSIFT true neg v = Some z /\
  z = map (fun x => / (sqrt (energy w) + eps) * x) w /\ sqrt (energy z) = sqrt (energy w) / (sqrt (energy w) + eps) /\ sqrt (energy z) < 1.
Proof.
  intros H. exists (map (rt (magnitude v + eps)) v). eexists. unfold rootSIFT. rewrite roots by exact H. split; [ reflexivity | ]. split; [ reflexivity | ].
  set (w := map (rt (magnitude v + eps)) v). rewrite l2_energy. assert (P := sqrt_pos (energy w)). assert (E := eps_pos). set (s := sqrt (energy w)) in *.
  assert (A : map (fun x => x / (s + eps)) w = map (fun x => / (s + eps) * x) w) by (apply map_ext; intros; unfold Rdiv; lra).
  rewrite A. split; [ reflexivity | ]. assert (Q : 0 < / (s + eps)) by (apply Rinv_0_lt_compat; lra).
  rewrite energy_scale, sqrt_mult_alt by (apply Rlt_le, Rmult_lt_0_compat; exact Q). rewrite sqrt_square by lra. fold s.
  split; [ unfold Rdiv; lra | ]. apply Rmult_lt_reg_l with (s + eps); [ lra | ]. rewrite <- Rmult_assoc, Rinv_r by lra. lra.
Qed.
Lemma refuses v : v <> [] -> (rootSIFT false false v = None <->
  ~ ((forall x, In x v -> 0 <= x) \/ ((forall x, In x v -> x <= 0) /\ total v + eps < 0))).
Proof.
  intros NE. unfold rootSIFT. rewrite l1_pos. set (n := total v + eps).
  assert (A : (match all_some (map (root false n) v) with Some w => Some w | None => None end = None) <-> all_some (map (root false n) v) = None) by (destruct (all_some _); split; congruence).
  rewrite A, all_some_none. clear A.
  assert (R : forall x, root false n x = None <-> n = 0 \/ x / n < 0).
  { intros x. unfold root. cbn. destruct (Req_EM_T n 0) as [Z|Z]; [ split; auto | ]. destruct (Rlt_dec (x / n) 0); split; auto; [ discriminate | intros [?|?]; contradiction ]. }
  split.
  - intros (x & X & F) [H|[H L]]; apply R in F.
    + assert (T := total_nonneg v H). assert (E := eps_pos). destruct F as [F|F]; [ unfold n in F; lra | ].
      assert (B := div_nonneg x n ltac:(unfold n; lra) (H x X)). lra.
    + fold n in L. destruct F as [F|F]; [ lra | ]. assert (B := div_nonneg (- x) (- n) ltac:(lra) ltac:(specialize (H x X); lra)).
      replace (- x / - n) with (x / n) in B by (field; lra). lra.
  - intros H. destruct (Req_dec n 0) as [Z|Z].
    + destruct v as [|x v]; [ congruence | ]. exists x. split; [ left; reflexivity | ]. apply R. left. exact Z.
    + destruct (Rlt_le_dec n 0) as [L|L].
      * assert (D : (exists x, In x v /\ 0 < x) \/ forall x, In x v -> x <= 0).
        { clear. induction v as [|y v [(x & X & P)|IH]]; [ right; intros x [] | left; exists x; split; [ right; exact X | exact P ] | ].
          destruct (Rlt_le_dec 0 y); [ left; exists y; split; [ left; reflexivity | assumption ] | right; intros x [<-|X]; [ assumption | apply IH, X ] ]. }
        destruct D as [(x & X & P)|D]; [ | exfalso; apply H; right; split; assumption ].
        exists x. split; [ exact X | ]. apply R. right. assert (B : 0 < x / - n) by (apply Rdiv_lt_0_compat; lra).
        replace (x / - n) with (- (x / n)) in B by (field; lra). lra.
      * assert (D : (exists x, In x v /\ x < 0) \/ forall x, In x v -> 0 <= x).
        { clear. induction v as [|y v [(x & X & P)|IH]]; [ right; intros x [] | left; exists x; split; [ right; exact X | exact P ] | ].
          destruct (Rlt_le_dec y 0); [ left; exists y; split; [ left; reflexivity | assumption ] | right; intros x [<-|X]; [ assumption | apply IH, X ] ]. }
        destruct D as [(x & X & P)|D]; [ | exfalso; apply H; left; exact D ].
        exists x. split; [ exact X | ]. apply R. right. assert (B : 0 < - x / n) by (apply Rdiv_lt_0_compat; lra).
        replace (- x / n) with (- (x / n)) in B by (field; lra). lra.
Qed.

(* scaling *)
Lemma magnitude_scale k v : magnitude (map (fun x => k * x) v) = Rabs k * magnitude v.
Proof. unfold magnitude. rewrite map_map, <- total_scale, map_map. apply total_ext. intros. apply Rabs_mult. Qed.
Lemma rt_scale k m n x : 0 < k -> 0 < m -> 0 < n -> rt m (k * x) = sqrt (k * n / m) * rt n x.
Proof.
  intros K M N. unfold rt. assert (P : 0 <= k * n / m) by (apply div_nonneg; [ exact M | apply Rlt_le, Rmult_lt_0_compat; assumption ]).
  destruct (Rlt_dec x 0) as [L|L].
  - destruct (Rlt_dec (k * x) 0) as [_|C]; [ | exfalso; apply C; assert (0 < k * - x) by (apply Rmult_lt_0_compat; lra); lra ].
    rewrite <- Ropp_mult_distr_r, <- sqrt_mult_alt by exact P. do 2 f_equal. field. lra.
  - destruct (Rlt_dec (k * x) 0) as [C|_]; [ exfalso; assert (0 <= k * x) by (apply Rmult_le_pos; lra); lra | ].
    rewrite <- sqrt_mult_alt by exact P. f_equal. field. lra.
Qed.
Lemma accepted_scale neg k v : 0 < k -> accepted neg v -> accepted neg (map (fun x => k * x) v).
Proof. intros K [H|H]; [ left; exact H | right ]. intros x X. apply in_map_iff in X as (y & <- & Y). apply Rmult_le_pos; [ lra | apply H, Y ]. Qed.
Lemma scale_claim neg k v : 0 < k -> accepted neg v -> exists c w, 0 < c /\ c * c = k * (magnitude v + eps) / (k * magnitude v + eps) /\
  rootSIFT false neg v = Some w /\ rootSIFT false neg (map (fun x => k * x) v) = Some (map (fun x => c * x) w).
Proof.
  intros K H. assert (N := norm_pos v). assert (M := norm_pos (map (fun x => k * x) v)). rewrite magnitude_scale, (Rabs_right k) in M by lra.
  exists (sqrt (k * (magnitude v + eps) / (k * magnitude v + eps))), (map (rt (magnitude v + eps)) v).
  assert (P : 0 < k * (magnitude v + eps) / (k * magnitude v + eps)) by (apply Rdiv_lt_0_compat; [ apply Rmult_lt_0_compat; assumption | exact M ]).
  split; [ apply sqrt_lt_R0, P | ]. split; [ apply sqrt_def; lra | ]. unfold rootSIFT. rewrite !roots by (try apply accepted_scale; assumption). split; [ reflexivity | ].
  f_equal. rewrite magnitude_scale, (Rabs_right k), !map_map by lra. apply map_ext. intros x. apply rt_scale; assumption.
Qed.
Lemma scale_refuted : exists v w z, rootSIFT false false v = Some w /\ rootSIFT false false (map (fun x => 2 * x) v) = Some z /\ w <> z.
Proof.
  destruct (scale_claim false 2 [1] ltac:(lra)) as (c & w & C & Q & A & B).
  { right. intros x [<-|[]]. lra. }
  exists [1], w, (map (fun x => c * x) w). split; [ exact A | ]. split; [ exact B | ]. intros E.
  destruct (root_claim false [1]) as (u & U & F & G). { right. intros x [<-|[]]. lra. }
  rewrite A in U. injection U as <-. inversion F as [|? y ? ? (S1 & S2) F']; subst. inversion F'; subst. cbn in E. injection E as E.
  assert (Y : 0 < y) by (apply (proj2 S2); lra). assert (X : c = 1) by (apply Rmult_eq_reg_r with y; lra). rewrite X in Q.
  assert (M : magnitude [1] = 1) by (unfold magnitude; cbn; rewrite Rabs_R1; lra). rewrite M in Q. assert (P := eps_pos).
  assert (Q' : 1 * 1 * (2 * 1 + eps) = 2 * (1 + eps)) by (rewrite Q; field; lra). lra.
Qed.

(* distances *)
Lemma root_dist p q : 0 <= p -> 0 <= q -> (sqrt p - sqrt q) * (sqrt p - sqrt q) <= Rabs (p - q).
Proof.
  intros P Q. assert (A := sqrt_pos p). assert (B := sqrt_pos q). rewrite <- (sqrt_def p P) at 3. rewrite <- (sqrt_def q Q) at 3.
  replace (sqrt p * sqrt p - sqrt q * sqrt q) with ((sqrt p - sqrt q) * (sqrt p + sqrt q)) by lra. rewrite Rabs_mult, (Rabs_right (sqrt p + sqrt q)) by lra.
  rewrite <- (Rabs_right ((sqrt p - sqrt q) * (sqrt p - sqrt q))) by (apply Rle_ge, Rle_0_sqr). rewrite Rabs_mult. apply Rmult_le_compat_l; [ apply Rabs_pos | ].
  apply Rabs_le. lra.
Qed.
Lemma hellinger m n : forall a b, 0 < m -> 0 < n -> (forall x, In x a -> 0 <= x) -> (forall x, In x b -> 0 <= x) ->
  total (map (fun p => (fst p - snd p) * (fst p - snd p)) (combine (map (rt m) a) (map (rt n) b))) <=
  total (map (fun p => Rabs (fst p / m - snd p / n)) (combine a b)).
Proof.
  induction a as [|x a IH]; intros [|y b] M N A B; cbn; try lra. assert (X := A x (or_introl eq_refl)). assert (Y := B y (or_introl eq_refl)).
  assert (R := IH b M N (fun z Z => A z (or_intror Z)) (fun z Z => B z (or_intror Z))). unfold rt at 1 2 3 4. destruct (Rlt_dec x 0); [ lra | ]. destruct (Rlt_dec y 0); [ lra | ].
  assert (H := root_dist (x / m) (y / n) (div_nonneg x m M X) (div_nonneg y n N Y)). lra.
Qed.
Lemma hellinger_two m n : forall a b, 0 < m -> 0 < n -> (forall x, In x a -> 0 <= x) -> (forall x, In x b -> 0 <= x) ->
  total (map (fun p => (fst p - snd p) * (fst p - snd p)) (combine (map (rt m) a) (map (rt n) b))) <= total a / m + total b / n.
Proof.
  induction a as [|x a IH]; intros [|y b] M N A B; cbn.
  - unfold Rdiv. lra.
  - assert (T := total_nonneg (y :: b) B). cbn in T. assert (U := div_nonneg _ n N T). unfold Rdiv in *. lra.
  - assert (T := total_nonneg (x :: a) A). cbn in T. assert (U := div_nonneg _ m M T). unfold Rdiv in *. lra.
  - assert (X := A x (or_introl eq_refl)). assert (Y := B y (or_introl eq_refl)).
    assert (R := IH b M N (fun z Z => A z (or_intror Z)) (fun z Z => B z (or_intror Z))).
    assert (U := rt_sqr m x M). assert (V := rt_sqr n y N). rewrite Rabs_right in U, V by lra. unfold Rdiv in *.
    assert (0 <= rt m x * rt n y).
    { unfold rt. destruct (Rlt_dec x 0); [ lra | ]. destruct (Rlt_dec y 0); [ lra | ]. apply Rmult_le_pos; apply sqrt_pos. }
    lra.
Qed.
Lemma dist_claim a b : (forall x, In x a -> 0 <= x) -> (forall x, In x b -> 0 <= x) ->
  exists u w, rootSIFT false false a = Some u /\ rootSIFT false false b = Some w /\
    total (map (fun p => (fst p - snd p) * (fst p - snd p)) (combine u w)) <=
      total (map (fun p => Rabs (fst p / (magnitude a + eps) - snd p / (magnitude b + eps))) (combine a b)) /\
    total (map (fun p => (fst p - snd p) * (fst p - snd p)) (combine u w)) < 2.
Proof.
  intros A B. exists (map (rt (magnitude a + eps)) a), (map (rt (magnitude b + eps)) b). unfold rootSIFT. rewrite !roots by (right; assumption).
  split; [ reflexivity | ]. split; [ reflexivity | ]. split; [ apply hellinger; try assumption; apply norm_pos | ].
  eapply Rle_lt_trans; [ apply hellinger_two; try assumption; apply norm_pos | ]. rewrite <- !magnitude_total by assumption.
  assert (P := eps_pos). assert (L : forall t, 0 <= t -> t / (t + eps) < 1).
  { intros t T. apply Rmult_lt_reg_r with (t + eps); [ lra | ]. unfold Rdiv. rewrite Rmult_assoc, Rinv_l by lra. lra. }
  assert (X := L _ (magnitude_nonneg a)). assert (Y := L _ (magnitude_nonneg b)). lra.
Qed.

(* integers *)
Lemma int_claim v : (forall x, In x v -> (0 <= x)%Z) -> rootSIFT_int v = Some (map (fun _ => 0%Z) v).
Proof.
  intros H. assert (A : forall x, In x (map IZR v) -> 0 <= x).
  { intros x X. apply in_map_iff in X as (z & <- & Z). apply IZR_le, H, Z. }
  unfold rootSIFT_int. rewrite roots by (right; exact A). f_equal. rewrite !map_map. apply map_ext_in. intros z Z.
  assert (N := norm_pos (map IZR v)). set (n := magnitude (map IZR v) + eps) in *. assert (X : 0 <= IZR z) by (apply IZR_le, H, Z).
  assert (L : IZR z < n).
  { unfold n. rewrite magnitude_total by exact A. assert (P := eps_pos). assert (T : IZR z <= total (map IZR v)); [ | lra ].
    clear - Z A. induction v as [|y v IH]; cbn in *; [ contradiction | ]. assert (Y := A (IZR y) (or_introl eq_refl)).
    assert (T := total_nonneg (map IZR v) (fun x X => A x (or_intror X))). destruct Z as [ -> |Z]; [ lra | ]. assert (U := IH (fun x X => A x (or_intror X)) Z). lra. }
  unfold rt. destruct (Rlt_dec (IZR z) 0); [ lra | ]. unfold truncated. assert (S0 := sqrt_pos (IZR z / n)). destruct (Rle_dec 0 (sqrt (IZR z / n))); [ | contradiction ].
  assert (S1 : sqrt (IZR z / n) < 1).
  { rewrite <- sqrt_1. apply sqrt_lt_1_alt. split; [ apply div_nonneg; assumption | ]. apply Rmult_lt_reg_r with n; [ exact N | ]. unfold Rdiv. rewrite Rmult_assoc, Rinv_l by lra. lra. }
  destruct (base_Int_part (sqrt (IZR z / n))) as [I J]. assert (K : IZR (-1) < IZR (Int_part (sqrt (IZR z / n)))) by lra. apply lt_IZR in K.
  assert (K' : IZR (Int_part (sqrt (IZR z / n))) < IZR 1) by lra. apply lt_IZR in K'. lia.
Qed.

(* ---- sparseness ---- *)
Lemma norm1_magnitude v : norm1 v = magnitude v.
Proof. unfold norm1. rewrite (fold_total Rabs). unfold magnitude. lra. Qed.
Lemma norm2_energy v : norm2 v = sqrt (energy v).
Proof. unfold norm2. rewrite (fold_total (fun x => x * x)), Rplus_0_l. reflexivity. Qed.
Lemma energy_zero v : energy v = 0 <-> zero v.
Proof.
  unfold energy. split.
  - intros E x X. assert (A : x * x = 0).
    { apply (total_zero (map (fun x => x * x) v)); [ | exact E | apply in_map_iff; exists x; split; [ reflexivity | exact X ] ].
      intros y Y. apply in_map_iff in Y as (z & <- & _). apply Rle_0_sqr. }
    destruct (Rmult_integral _ _ A); assumption.
  - intros Z. induction v as [|x v IH]; cbn; [ reflexivity | ]. rewrite (Z x (or_introl eq_refl)), IH by (intros y Y; apply Z; right; exact Y). lra.
Qed.
Lemma magnitude_zero v : magnitude v = 0 <-> zero v.
Proof.
  unfold magnitude. split.
  - intros E x X. assert (A : Rabs x = 0).
    { apply (total_zero (map Rabs v)); [ | exact E | apply in_map_iff; exists x; split; [ reflexivity | exact X ] ].
      intros y Y. apply in_map_iff in Y as (z & <- & _). apply Rabs_pos. }
    destruct (Req_dec x 0) as [|N]; [ assumption | ]. exfalso. apply Rabs_no_R0 in N. contradiction.
  - intros Z. induction v as [|x v IH]; cbn; [ reflexivity | ]. rewrite (Z x (or_introl eq_refl)), IH by (intros y Y; apply Z; right; exact Y). rewrite Rabs_R0. lra.
Qed.
Lemma abs_sqr x : Rabs x * Rabs x = x * x.
Proof. rewrite <- Rabs_mult. apply Rabs_right, Rle_ge, Rle_0_sqr. Qed.
(* the energy is at most the squared magnitude, with equality for at most one entry *)
Lemma energy_le v : energy v <= magnitude v * magnitude v.
Proof.
  unfold energy, magnitude. induction v as [|x v IH]; cbn; [ lra | ]. assert (A := Rabs_pos x). assert (B := magnitude_nonneg v). unfold magnitude in B.
  assert (C := abs_sqr x). assert (0 <= Rabs x * total (map Rabs v)) by (apply Rmult_le_pos; assumption). lra.
Qed.
Lemma energy_eq v : energy v = magnitude v * magnitude v <-> zero v \/ single v.
Proof.
  split.
  - induction v as [|x v IH]; intros E; [ left; intros x [] | ]. unfold energy, magnitude in E. cbn in E. fold (energy v) (magnitude v) in E.
    assert (L := energy_le v). assert (B := magnitude_nonneg v). assert (A := Rabs_pos x). assert (C := abs_sqr x).
    assert (P : 0 <= Rabs x * magnitude v) by (apply Rmult_le_pos; assumption). assert (Z : Rabs x * magnitude v = 0) by lra. assert (E' : energy v = magnitude v * magnitude v) by lra.
    destruct (Rmult_integral _ _ Z) as [X|M].
    + assert (x = 0). { destruct (Req_dec x 0) as [|N]; [ assumption | ]. apply Rabs_no_R0 in N. contradiction. } subst x.
      destruct (IH E') as [V|(a & y & b & -> & Y & Za & Zb)].
      * left. intros y [<-|W]; [ reflexivity | apply V, W ].
      * right. exists (0 :: a), y, b. split; [ reflexivity | ]. split; [ exact Y | ]. split; [ | exact Zb ]. intros z [<-|W]; [ reflexivity | apply Za, W ].
    + apply magnitude_zero in M. destruct (Req_dec x 0) as [ -> |X]; [ left; intros y [<-|W]; [ reflexivity | apply M, W ] | ].
      right. exists [], x, v. split; [ reflexivity | ]. split; [ exact X | ]. split; [ intros y [] | exact M ].
  - intros [Z|(a & x & b & -> & X & Za & Zb)].
    + rewrite (proj2 (energy_zero v) Z), (proj2 (magnitude_zero v) Z). lra.
    + unfold energy, magnitude. rewrite !map_app. cbn [map]. assert (T : forall f, total (map f a ++ f x :: map f b) = total (map f a) + f x + total (map f b)).
      { intros f. generalize (map f a). induction l as [|y l IH]; cbn; [ lra | rewrite IH; lra ]. }
      rewrite (T (fun x => x * x)), (T Rabs). fold (energy a) (energy b) (magnitude a) (magnitude b).
      rewrite (proj2 (energy_zero a) Za), (proj2 (energy_zero b) Zb), (proj2 (magnitude_zero a) Za), (proj2 (magnitude_zero b) Zb). assert (C := abs_sqr x). lra.
Qed.
(* Cauchy-Schwarz *)
Lemma variance m v : total (map (fun x => (Rabs x - m) * (Rabs x - m)) v) = energy v - 2 * m * magnitude v + INR (length v) * (m * m).
Proof.
  unfold energy, magnitude. induction v as [|x v IH]; [ cbn; lra | ]. cbn [map total length]. rewrite IH, S_INR, <- (abs_sqr x). lra.
Qed.
Lemma cauchy v : v <> [] -> magnitude v * magnitude v <= INR (length v) * energy v /\ (magnitude v * magnitude v = INR (length v) * energy v <-> flat v).
Proof.
  intros NE. assert (N : 0 < INR (length v)) by (apply lt_0_INR; destruct v; [ congruence | cbn; lia ]). set (n := INR (length v)) in *.
  assert (V := variance (magnitude v / n) v). fold n in V. set (q := total _) in V.
  assert (Q : 0 <= q). { apply total_nonneg. intros x X. apply in_map_iff in X as (y & <- & _). apply Rle_0_sqr. }
  assert (E : n * energy v - magnitude v * magnitude v = n * q) by (rewrite V; field; lra).
  assert (P : 0 <= n * q) by (apply Rmult_le_pos; lra). split; [ lra | ]. split.
  - intros H. assert (Z : n * q = 0) by lra. destruct (Rmult_integral _ _ Z) as [|Z']; [ lra | ]. exists (magnitude v / n). intros x X.
    assert (Y : (Rabs x - magnitude v / n) * (Rabs x - magnitude v / n) = 0).
    { apply (total_zero (map (fun x => (Rabs x - magnitude v / n) * (Rabs x - magnitude v / n)) v)); [ | exact Z' | apply in_map_iff; exists x; split; [ reflexivity | exact X ] ].
      intros y Y. apply in_map_iff in Y as (z & <- & _). apply Rle_0_sqr. }
    destruct (Rmult_integral _ _ Y); lra.
  - intros (m & M). assert (A : magnitude v = n * m /\ energy v = n * (m * m)).
    { unfold n. clear - M. unfold magnitude, energy. induction v as [|x v IH]; [ cbn; lra | ]. destruct (IH (fun y Y => M y (or_intror Y))) as [A B].
      cbn [map total length]. rewrite A, B, S_INR, <- (abs_sqr x), (M x (or_introl eq_refl)). lra. }
    destruct A as [-> ->]. lra.
Qed.
Lemma sparse_claim v : (1 < length v)%nat -> ~ zero v -> exists s, sparseness v = Some s /\ 0 <= s <= 1 /\ (s = 0 <-> flat v) /\ (s = 1 <-> single v).
Proof.
  intros L NZ. unfold sparseness. destruct (Nat.leb_spec (length v) 1) as [LE|_]; [ lia | ]. rewrite norm1_magnitude, norm2_energy.
  assert (E0 : 0 < energy v). { destruct (energy_nonneg v) as [|E]; [ assumption | ]. exfalso. apply NZ, energy_zero. symmetry. exact E. }
  assert (M0 : 0 < magnitude v). { destruct (magnitude_nonneg v) as [|E]; [ assumption | ]. exfalso. apply NZ, magnitude_zero. symmetry. exact E. }
  assert (S0 : 0 < sqrt (energy v)) by (apply sqrt_lt_R0, E0). destruct (Req_EM_T (sqrt (energy v)) 0) as [ZE|_]; [ lra | ].
  eexists. split; [ reflexivity | ]. set (n := INR (length v)). assert (N : 1 < n) by (change 1 with (INR 1); apply lt_INR; lia).
  assert (RN : 1 < sqrt n) by (rewrite <- sqrt_1; apply sqrt_lt_1_alt; lra).
  destruct (cauchy v ltac:(destruct v; [ cbn in L; lia | discriminate ])) as [C0 C1]. fold n in C0, C1. assert (E1 := energy_le v). assert (E2 := energy_eq v).
  set (e := sqrt (energy v)) in *. assert (Ee : e * e = energy v) by (apply sqrt_def; lra). assert (En : sqrt n * sqrt n = n) by (apply sqrt_def; lra).
  set (r := magnitude v / e). assert (Re : r * e = magnitude v) by (unfold r; field; lra).
  assert (R1 : 1 <= r). { apply Rmult_le_reg_r with e; [ exact S0 | ]. rewrite Re, Rmult_1_l. apply Rsqr_incr_0_var; [ unfold Rsqr; lra | lra ]. }
  assert (R2 : r <= sqrt n). { apply Rmult_le_reg_r with e; [ exact S0 | ]. rewrite Re. apply Rsqr_incr_0_var; [ unfold Rsqr; nra | apply Rmult_le_pos; lra ]. }
  split; [ | split ].
  - split; [ apply div_nonneg; lra | ]. apply Rmult_le_reg_r with (sqrt n - 1); [ lra | ]. unfold Rdiv. rewrite Rmult_assoc, Rinv_l by lra. lra.
  - rewrite <- C1. split; intros H.
    + assert (H0 : r = sqrt n). { assert (G : sqrt n - r = (sqrt n - r) / (sqrt n - 1) * (sqrt n - 1)) by (field; lra). rewrite H in G. lra. }
      rewrite <- Re, H0, <- Ee. rewrite <- En at 3. lra.
    + assert (H0 : r = sqrt n); [ | rewrite H0; unfold Rdiv; lra ]. apply Rmult_eq_reg_r with e; [ | lra ]. rewrite Re. apply Rsqr_inj; [ lra | apply Rmult_le_pos; lra | ].
      unfold Rsqr. rewrite H, <- Ee. rewrite <- En at 1. lra.
  - assert (X : (sqrt n - r) / (sqrt n - 1) = 1 <-> r = 1).
    { split; intros H; [ assert (G : sqrt n - r = (sqrt n - r) / (sqrt n - 1) * (sqrt n - 1)) by (field; lra); rewrite H in G; lra | rewrite H; field; lra ]. }
    rewrite X. assert (Y : r = 1 <-> energy v = magnitude v * magnitude v).
    { rewrite <- Ee. split; intros H; [ rewrite <- Re, H; lra | ]. apply Rmult_eq_reg_r with e; [ | lra ]. rewrite Re, Rmult_1_l. apply Rsqr_inj; unfold Rsqr; lra. }
    rewrite Y, E2. split; [ intros [Z|Z]; [ contradiction | exact Z ] | right; assumption ].
Qed.
Lemma sparse_none v : sparseness v = None <-> (length v <= 1)%nat \/ zero v.
Proof.
  unfold sparseness. destruct (Nat.leb_spec (length v) 1) as [A|A]; [ split; auto | ]. rewrite norm2_energy. destruct (Req_EM_T (sqrt (energy v)) 0) as [E|E].
  - split; [ | reflexivity ]. intros _. right. apply energy_zero. apply sqrt_eq_0; [ apply energy_nonneg | exact E ].
  - split; [ discriminate | ]. intros [H|H]; [ lia | ]. exfalso. apply E. rewrite (proj2 (energy_zero v) H). apply sqrt_0.
Qed.
Lemma sparse_perm v w : Permutation v w -> sparseness v = sparseness w.
Proof.
  intros P. unfold sparseness. rewrite !norm1_magnitude, !norm2_energy. unfold magnitude, energy.
  rewrite (Permutation_length P), (total_perm _ _ (Permutation_map Rabs P)), (total_perm _ _ (Permutation_map (fun x => x * x) P)). reflexivity.
Qed.
Lemma sparse_scale k v : k <> 0 -> sparseness (map (fun x => k * x) v) = sparseness v.
Proof.
  intros K. unfold sparseness. rewrite !norm1_magnitude, !norm2_energy, magnitude_scale, energy_scale, map_length. rewrite <- abs_sqr.
  rewrite sqrt_mult_alt by (apply Rle_0_sqr). rewrite sqrt_square by apply Rabs_pos. assert (A := Rabs_pos_lt k K).
  destruct (length v <=? 1)%nat; [ reflexivity | ]. destruct (Req_EM_T (Rabs k * sqrt (energy v)) 0) as [E|E], (Req_EM_T (sqrt (energy v)) 0) as [F|F]; try reflexivity.
  - exfalso. destruct (Rmult_integral _ _ E); [ lra | contradiction ].
  - exfalso. apply E. rewrite F. lra.
  - do 3 f_equal. field. split; [ exact F | lra ].
Qed.
