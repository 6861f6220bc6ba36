From Coq Require Import ZArith List Lia Bool Reals Lra.
From Verif Require Import Lib.Grid Model.Distances Model.Simd Model.JointHist Model.MutualInfo Spec.JointHist Spec.MutualInfo Proofs.Simd Proofs.JointHist.
Import ListNotations.
Open Scope R_scope.

Lemma total_app a b : total (a ++ b) = total a + total b.
Proof. unfold total. induction a as [|x a IH]; cbn [app fold_right]; [ lra |]. rewrite IH. lra. Qed.
Lemma total_map_plus {A} (f g : A -> R) l : total (map (fun x => f x + g x) l) = total (map f l) + total (map g l).
Proof. unfold total. induction l as [|x l IH]; cbn [map fold_right]; [ lra |]. rewrite IH. lra. Qed.
Lemma total_scal {A} c (f : A -> R) l : total (map (fun x => c * f x) l) = c * total (map f l).
Proof. unfold total. induction l as [|x l IH]; cbn [map fold_right]; [ lra |]. rewrite IH. lra. Qed.
Lemma total_ext {A} (f g : A -> R) l : (forall x, In x l -> f x = g x) -> total (map f l) = total (map g l).
Proof. intro H. f_equal. apply map_ext_in. exact H. Qed.
Lemma total_le {A} (f g : A -> R) l : (forall x, In x l -> f x <= g x) -> total (map f l) <= total (map g l).
Proof.
  induction l as [|x l IH]; intro H; cbn [app map total fold_right]; [ lra |]. unfold total in *. specialize (H x (or_introl eq_refl)) as Hx.
  assert (forall y, In y l -> f y <= g y) by (intros; apply H; now right). specialize (IH H0). lra.
Qed.
Lemma total_lt {A} (f g : A -> R) l a : (forall x, In x l -> f x <= g x) -> In a l -> f a < g a -> total (map f l) < total (map g l).
Proof.
  induction l as [|x l IH]; intros H I L; [ destruct I |]. cbn [map total fold_right]. assert (Hl : forall y, In y l -> f y <= g y) by (intros; apply H; now right).
  pose proof (total_le f g l Hl) as T. unfold total in *. destruct I as [->|I].
  - lra.
  - specialize (IH Hl I L). specialize (H x (or_introl eq_refl)). lra.
Qed.
Lemma total_const {A} c (l : list A) : total (map (fun _ => c) l) = c * INR (length l).
Proof. induction l as [|x l IH]; cbn [map total fold_right length]; [ unfold total, mean; cbn [map fold_right length INR]; lra |]. unfold total in *. rewrite IH, S_INR. lra. Qed.

(** sum over all keys of occurrences times weight = sum over the elements *)
Lemma sum_keys {A} (dec : forall x y : A, {x = y} + {x <> y}) (f : A -> R) (G K : list A) : NoDup G -> (forall k, In k K -> In k G) ->
  total (map (fun k => IZR (freq (fun x => if dec x k then true else false) K) * f k) G) = total (map f K).
Proof.
  intros ND. induction K as [|x K IH]; intro C.
  - cbn [map total fold_right]. rewrite (total_ext _ (fun _ => 0)) by (intros; unfold freq; cbn; lra). rewrite total_const. lra.
  - cbn [map]. rewrite (total_ext _ (fun k => (if dec x k then f k else 0) + IZR (freq (fun x => if dec x k then true else false) K) * f k)).
    + rewrite total_map_plus, IH by (intros; apply C; now right). unfold total at 3. cbn [fold_right]. fold (total (map f K)). f_equal.
      assert (I : In x G) by (apply C; now left). clear -ND I. induction G as [|g G IH]; [ destruct I |].
      inversion ND; subst. cbn [map total fold_right]. fold (total (map (fun k => if dec x k then f k else 0) G)).
      destruct (dec x g) as [->|N].
      * rewrite (total_ext _ (fun _ => 0)).
        -- rewrite total_const. lra.
        -- intros y Y. destruct (dec g y) as [->|]; [ contradiction | reflexivity ].
      * destruct I as [I|I]; [ congruence |]. rewrite IH by assumption. lra.
    + intros k _. unfold freq. cbn [filter]. destruct (dec x k); cbn [length]; [| lra ]. rewrite Nat2Z.inj_succ, succ_IZR. lra.
Qed.

(** * properties of the specification *)
Definition pdec (x y : Z * Z) : {x = y} + {x <> y}.
Proof. decide equality; apply Z.eq_dec. Defined.
Lemma n12_dec K a b : n12 K a b = freq (fun x => if pdec x (a, b) then true else false) K.
Proof.
  unfold n12, freq. do 2 f_equal. apply filter_ext. intros [u v]. cbn [fst snd]. destruct (pdec (u, v) (a, b)) as [E|N].
  - injection E as -> ->. now rewrite !Z.eqb_refl.
  - destruct (Z.eqb_spec u a), (Z.eqb_spec v b); try reflexivity. congruence.
Qed.
Lemma freq_pos {A} (p : A -> bool) l x : In x l -> p x = true -> (1 <= freq p l)%Z.
Proof. intros I P. unfold freq. assert (In x (filter p l)) by (apply filter_In; auto). destruct (filter p l); [ contradiction | cbn [length]; lia ]. Qed.
Lemma freq_le {A} (p q : A -> bool) l : (forall x, In x l -> p x = true -> q x = true) -> (freq p l <= freq q l)%Z.
Proof. apply (count_mono p q l). Qed.
Lemma in_counts K a b : In (a, b) K -> (1 <= n12 K a b /\ n12 K a b <= n1 K a /\ n12 K a b <= n2 K b /\ n1 K a <= Z.of_nat (length K) /\ n2 K b <= Z.of_nat (length K))%Z.
Proof.
  intro I. split; [ apply (freq_pos _ _ (a, b) I); cbn; now rewrite !Z.eqb_refl |].
  split; [ apply freq_le; intros x _; rewrite andb_true_iff; tauto |].
  split; [ apply freq_le; intros x _; rewrite andb_true_iff; tauto |].
  split; [ apply (count_le (fun k => (fst k =? a)%Z) K) | apply (count_le (fun k => (snd k =? b)%Z) K) ].
Qed.
Lemma ln2_pos : 0 < ln 2.
Proof. rewrite <- ln_1. apply ln_increasing; lra. Qed.
Lemma lg_le x y : 0 < x -> x <= y -> lg x <= lg y.
Proof.
  intros P L. unfold lg. apply Rmult_le_compat_r; [ left; apply Rinv_0_lt_compat, ln2_pos |].
  destruct L as [L| -> ]; [ left; now apply ln_increasing | right; reflexivity ].
Qed.
Lemma lg_1 : lg 1 = 0.
Proof. unfold lg. rewrite ln_1. lra. Qed.
Lemma lg_inv x : 0 < x -> - lg x = lg (/ x).
Proof. intro P. unfold lg. rewrite ln_Rinv by exact P. lra. Qed.
Lemma mean_le {A} (f g : A -> R) l : (forall x, In x l -> f x <= g x) -> mean (map f l) <= mean (map g l).
Proof.
  intro H. unfold mean. rewrite !map_length. destruct l as [|x l]; [ unfold total, mean; cbn [map fold_right length INR]; lra |]. apply Rmult_le_compat_r; [| now apply total_le ].
  left. apply Rinv_0_lt_compat, lt_0_INR. cbn; lia.
Qed.
Lemma mean_nonneg {A} (f : A -> R) l : (forall x, In x l -> 0 <= f x) -> 0 <= mean (map f l).
Proof.
  intro H. apply Rle_trans with (mean (map (fun _ => 0) l)); [| now apply mean_le ].
  unfold mean. rewrite total_const. lra.
Qed.
Lemma information_le1 K : information K <= entropy1 K.
Proof.
  unfold information, entropy1. apply mean_le. intros [a b] I. destruct (in_counts K a b I) as (A & B & C & D & E).
  assert (N : (1 <= Z.of_nat (length K))%Z) by lia. rewrite INR_IZR_INZ.
  apply IZR_le in A, B, C, N. rewrite lg_inv by (apply Rdiv_lt_0_compat; lra). apply lg_le.
  - apply Rdiv_lt_0_compat; apply Rmult_lt_0_compat; lra.
  - rewrite Rinv_div. apply Rle_trans with ((IZR (n2 K b) * IZR (Z.of_nat (length K))) / (IZR (n1 K a) * IZR (n2 K b))).
    + apply Rmult_le_compat_r; [ left; apply Rinv_0_lt_compat, Rmult_lt_0_compat; lra |]. apply Rmult_le_compat_r; lra.
    + right. field. lra.
Qed.
Definition swap (p : Z * Z) : Z * Z := (snd p, fst p).
Lemma n1_swap K a : n1 (map swap K) a = n2 K a.
Proof. unfold n1, n2, freq. rewrite filter_map, map_length. reflexivity. Qed.
Lemma n2_swap K a : n2 (map swap K) a = n1 K a.
Proof. unfold n1, n2, freq. rewrite filter_map, map_length. reflexivity. Qed.
Lemma n12_swap K a b : n12 (map swap K) a b = n12 K b a.
Proof. unfold n12, freq. rewrite filter_map, map_length. do 2 f_equal. apply filter_ext. intros [u v]. cbn. apply andb_comm. Qed.
Lemma information_swap K : information (map swap K) = information K.
Proof.
  unfold information, mean. rewrite map_map, !map_length. f_equal. apply total_ext. intros [a b] _. cbn [swap fst snd].
  now rewrite n12_swap, n1_swap, n2_swap, (Rmult_comm (IZR (n2 K b))).
Qed.
Lemma entropy_swap K : entropy1 (map swap K) = entropy2 K.
Proof. unfold entropy1, entropy2, mean. rewrite map_map, !map_length. f_equal. apply total_ext. intros [a b] _. cbn [swap fst snd]. now rewrite n1_swap. Qed.
Lemma information_le2 K : information K <= entropy2 K.
Proof. rewrite <- information_swap, <- entropy_swap. apply information_le1. Qed.

(** distinct keys are hit at most once by each element *)
Lemma freq_sum_le {A B} (dec : forall x y : B, {x = y} + {x <> y}) (f : A -> B) (S : list B) (L : list A) : NoDup S ->
  (fold_right Z.add 0 (map (fun k => freq (fun x => if dec (f x) k then true else false) L) S) <= Z.of_nat (length L))%Z.
Proof.
  intro ND. induction L as [|x L IH].
  - assert (Z0 : fold_right Z.add 0%Z (map (fun k => freq (fun x => if dec (f x) k then true else false) ([] : list A)) S) = 0%Z).
    { clear. induction S; cbn [map fold_right]; [ reflexivity | rewrite IHS; reflexivity ]. }
    cbn [length] in *. lia.
  - cbn [length]. rewrite Nat2Z.inj_succ.
    assert (H : (fold_right Z.add 0 (map (fun k => freq (fun x => if dec (f x) k then true else false) (x :: L)) S) =
            fold_right Z.add 0 (map (fun k => if dec (f x) k then 1 else 0) S) +
            fold_right Z.add 0 (map (fun k => freq (fun x => if dec (f x) k then true else false) L) S))%Z).
    { clear. induction S as [|s S IH]; cbn [map fold_right]; [ reflexivity |]. rewrite IH. unfold freq at 1 3. cbn [filter].
      destruct (dec (f x) s); cbn [length]; lia. }
    rewrite H. assert (O : (fold_right Z.add 0 (map (fun k => if dec (f x) k then 1 else 0) S) <= 1)%Z); [| lia ].
    clear -ND. induction ND as [|s S N ND IH]; cbn [map fold_right]; [ lia |]. destruct (dec (f x) s) as [E|]; [| lia ].
    assert (Z0 : fold_right Z.add 0%Z (map (fun k => if dec (f x) k then 1%Z else 0%Z) S) = 0%Z); [| lia ].
    clear -N E. induction S as [|t S IH]; cbn [map fold_right]; [ reflexivity |]. rewrite IH by (intro; apply N; now right).
    destruct (dec (f x) t) as [E'|]; [| reflexivity ]. exfalso. apply N. left. congruence.
Qed.
Lemma support_sum K S : NoDup S -> (fold_right Z.add 0 (map (fun k => n1 K (fst k) * n2 K (snd k)) S) <= Z.of_nat (length K) * Z.of_nat (length K))%Z.
Proof.
  intro ND. pose proof (freq_sum_le pdec (fun z : (Z*Z)*(Z*Z) => (fst (fst z), snd (snd z))) S (list_prod K K) ND) as H.
  rewrite prod_len, Nat2Z.inj_mul in H. eapply Z.le_trans; [| exact H ]. apply Z.eq_le_incl. clear.
  induction S as [|[a b] S IH]; cbn [map fold_right]; [ reflexivity |]. rewrite IH. f_equal.
  unfold n1, n2, freq. cbn [fst snd]. rewrite <- Nat2Z.inj_mul, <- prod_len, <- filter_prod. do 2 f_equal.
  apply filter_ext. intros [[u v] [w z]]. cbn [fst snd]. destruct (pdec (u, z) (a, b)) as [E|N].
  - injection E as -> ->. now rewrite !Z.eqb_refl.
  - destruct (Z.eqb_spec u a), (Z.eqb_spec z b); try reflexivity. congruence.
Qed.
Lemma ln_le x : 0 < x -> ln x <= x - 1.
Proof.
  intro P. destruct (Req_dec x 1) as [->|N]; [ rewrite ln_1; lra |].
  assert (H : ln x <> 0) by (intro E; apply N; apply ln_inv; try lra; now rewrite ln_1).
  pose proof (exp_ineq1 (ln x) H) as E. rewrite exp_ln in E by exact P. lra.
Qed.
Lemma ln_lt x : 0 < x -> x <> 1 -> ln x < x - 1.
Proof.
  intros P N. assert (H : ln x <> 0) by (intro E; apply N; apply ln_inv; try lra; now rewrite ln_1).
  pose proof (exp_ineq1 (ln x) H) as E. rewrite exp_ln in E by exact P. lra.
Qed.

(** x = q r / p at each element *)
Definition ratio K (k : Z * Z) : R := (IZR (n1 K (fst k)) * IZR (n2 K (snd k))) / (IZR (n12 K (fst k) (snd k)) * INR (length K)).
Lemma ratio_pos K k : In k K -> 0 < ratio K k.
Proof.
  destruct k as [a b]. intro I. destruct (in_counts K a b I) as (A & B & C & D & E). unfold ratio. cbn [fst snd]. rewrite INR_IZR_INZ.
  assert (N : (1 <= Z.of_nat (length K))%Z) by lia. apply IZR_le in A, B, C, N. apply Rdiv_lt_0_compat; apply Rmult_lt_0_compat; lra.
Qed.
Lemma information_ratio K : information K = - total (map (fun k => ln (ratio K k)) K) / (ln 2 * INR (length K)).
Proof.
  destruct K as [|k0 K0]; [ unfold information, mean, total; cbn [map fold_right length]; unfold Rdiv; ring |].
  set (K := k0 :: K0). assert (NK : INR (length K) <> 0) by (apply not_0_INR; cbn; lia).
  unfold information, mean. rewrite map_length.
  rewrite (total_ext _ (fun k => (- / ln 2) * ln (ratio K k))).
  - rewrite total_scal. field. split; [ exact NK |]. pose proof ln2_pos; lra.
  - intros [a b] I. pose proof (ratio_pos K _ I) as P. destruct (in_counts K a b I) as (A & B & C & _).
    assert (N : (1 <= Z.of_nat (length K))%Z) by (cbn; lia). rewrite INR_IZR_INZ in *. apply IZR_le in A, B, C, N.
    unfold lg. replace (_ / (IZR (n1 K a) * IZR (n2 K b))) with (/ ratio K (a, b)).
    + rewrite ln_Rinv by exact P. field. pose proof ln2_pos; lra.
    + unfold ratio. cbn [fst snd]. rewrite INR_IZR_INZ. field. lra.
Qed.
Definition support (K : list (Z * Z)) := nodup pdec K.
Lemma support_IZR K S : IZR (fold_right Z.add 0%Z (map (fun k => (n1 K (fst k) * n2 K (snd k))%Z) S)) =
  total (map (fun k => IZR (n1 K (fst k)) * IZR (n2 K (snd k))) S).
Proof. unfold total. induction S as [|s S IH]; cbn [map fold_right]; [ reflexivity |]. now rewrite plus_IZR, mult_IZR, IH. Qed.
Lemma ratio_sum K : INR (length K) * total (map (ratio K) K) = IZR (fold_right Z.add 0%Z (map (fun k => (n1 K (fst k) * n2 K (snd k))%Z) (support K))).
Proof.
  destruct K as [|k0 K0]; [ unfold total; cbn [map fold_right length INR support nodup]; rewrite Rmult_0_l; reflexivity |]. set (K := k0 :: K0).
  rewrite <- (sum_keys pdec (ratio K) (support K) K (NoDup_nodup _ _) (fun k I => proj2 (nodup_In _ _ _) I)).
  rewrite support_IZR, <- total_scal. apply total_ext. intros [a b] I. apply nodup_In in I.
  rewrite <- n12_dec. unfold ratio. cbn [fst snd]. destruct (in_counts K a b I) as (A & _).
  assert (N : (1 <= Z.of_nat (length K))%Z) by (cbn; lia). rewrite INR_IZR_INZ. apply IZR_le in A, N. field. lra.
Qed.
Lemma ratio_sum_le K : total (map (ratio K) K) <= INR (length K).
Proof.
  destruct K as [|k0 K0]; [ unfold total, mean; cbn [map fold_right length INR]; lra |]. set (K := k0 :: K0). pose proof (ratio_sum K) as E. pose proof (support_sum K (support K) (NoDup_nodup _ _)) as S.
  apply IZR_le in S. rewrite <- E, mult_IZR, <- !INR_IZR_INZ in S. assert (0 < INR (length K)) by (apply lt_0_INR; cbn; lia).
  apply Rmult_le_reg_l with (INR (length K)); assumption.
Qed.
Lemma information_nonneg K : 0 <= information K.
Proof.
  destruct K as [|k0 K0]; [ unfold information, mean, total; cbn [map fold_right length]; unfold Rdiv; lra |]. set (K := k0 :: K0). rewrite information_ratio.
  assert (NK : 0 < INR (length K)) by (apply lt_0_INR; cbn; lia). pose proof ln2_pos.
  assert (T : total (map (fun k => ln (ratio K k)) K) <= 0).
  { apply Rle_trans with (total (map (fun k => ratio K k + -1) K)).
    - apply total_le. intros k I. pose proof (ln_le _ (ratio_pos K k I)). lra.
    - rewrite total_map_plus, total_const. pose proof (ratio_sum_le K). lra. }
  unfold Rdiv. apply Rmult_le_pos; [ lra |]. left. apply Rinv_0_lt_compat. nra.
Qed.
Lemma information_independent K : independent K <-> information K = 0.
Proof.
  destruct K as [|k0 K0].
  - split; [ intros _; unfold information, mean, total; cbn [map fold_right length]; unfold Rdiv; lra |]. intros _ a b. reflexivity.
  - set (K := k0 :: K0). assert (NK : 0 < INR (length K)) by (apply lt_0_INR; cbn; lia). pose proof ln2_pos as L2. split.
    + intro H. rewrite information_ratio. rewrite (total_ext _ (fun _ => 0)).
      * rewrite total_const. unfold Rdiv. ring.
      * intros [a b] I. specialize (H a b). destruct (in_counts K a b I) as (A & B & C & _).
        assert (E : ratio K (a, b) = 1); [| rewrite E; apply ln_1 ]. unfold ratio. cbn [fst snd].
        rewrite <- mult_IZR, <- H, mult_IZR, <- INR_IZR_INZ. apply IZR_le in A. field. lra.
    + intro H. rewrite information_ratio in H.
      assert (T : total (map (fun k => ln (ratio K k)) K) = 0).
      { assert (X : - total (map (fun k => ln (ratio K k)) K) = 0 * (ln 2 * INR (length K))); [| lra ].
        rewrite <- H. field. lra. }
      assert (R1 : forall k, In k K -> ratio K k = 1).
      { intros k I. destruct (Req_dec (ratio K k) 1) as [E|N]; [ exact E | exfalso ].
        assert (X : total (map (fun k => ln (ratio K k)) K) < total (map (fun k => ratio K k + -1) K)).
        { apply total_lt with k; [| exact I |].
          - intros x J. pose proof (ln_le _ (ratio_pos K x J)). lra.
          - pose proof (ln_lt _ (ratio_pos K k I) N). lra. }
        rewrite total_map_plus, total_const in X. pose proof (ratio_sum_le K). lra. }
      intros a b.
      assert (In1 : forall a b, In (a, b) K -> (Z.of_nat (length K) * n12 K a b = n1 K a * n2 K b)%Z).
      { intros u v I. specialize (R1 _ I). unfold ratio in R1. cbn [fst snd] in R1. destruct (in_counts K u v I) as (A & _).
        apply IZR_le in A. apply eq_IZR. rewrite !mult_IZR, <- INR_IZR_INZ.
        apply (Rmult_eq_compat_r (IZR (n12 K u v) * INR (length K))) in R1. unfold Rdiv in R1.
        rewrite Rmult_assoc, Rinv_l, Rmult_1_r, Rmult_1_l in R1 by (apply Rmult_integral_contrapositive_currified; lra). lra. }
      destruct (in_dec pdec (a, b) K) as [I|NI]; [ now apply In1 |].
      assert (Z0 : n12 K a b = 0%Z).
      { unfold n12, freq. rewrite filter_none; [ reflexivity |]. intros [u v] J. cbn [fst snd].
        destruct (Z.eqb_spec u a), (Z.eqb_spec v b); try reflexivity. subst. contradiction. }
      rewrite Z0, Z.mul_0_r. symmetry.
      assert (Full : fold_right Z.add 0%Z (map (fun k => (n1 K (fst k) * n2 K (snd k))%Z) (support K)) = (Z.of_nat (length K) * Z.of_nat (length K))%Z).
      { apply eq_IZR. rewrite <- ratio_sum. rewrite (total_ext _ (fun _ => 1)) by exact R1. rewrite total_const, mult_IZR, <- INR_IZR_INZ. lra. }
      pose proof (support_sum K ((a, b) :: support K)) as S. cbn [map fold_right fst snd] in S. rewrite Full in S.
      assert (ND : NoDup ((a, b) :: support K)) by (constructor; [ intro J; apply nodup_In in J; contradiction | apply NoDup_nodup ]).
      specialize (S ND). assert (0 <= n1 K a)%Z by (unfold n1, freq; lia). assert (0 <= n2 K b)%Z by (unfold n2, freq; lia). nia.
Qed.
Lemma entropy1_nonneg K : 0 <= entropy1 K.
Proof.
  apply mean_nonneg. intros [a b] I. destruct (in_counts K a b I) as (A & B & C & D & E). rewrite INR_IZR_INZ.
  assert (N : (1 <= Z.of_nat (length K))%Z) by lia. apply IZR_le in A, B, D, N.
  rewrite lg_inv by (apply Rdiv_lt_0_compat; lra). rewrite <- lg_1. apply lg_le; [ lra |]. rewrite Rinv_div.
  apply Rmult_le_reg_r with (IZR (n1 K a)); [ lra |]. field_simplify; lra.
Qed.
Lemma entropy2_nonneg K : 0 <= entropy2 K.
Proof. rewrite <- entropy_swap. apply entropy1_nonneg. Qed.
Lemma information_self (l : list Z) : information (map (fun a => (a, a)) l) = entropy1 (map (fun a => (a, a)) l).
Proof.
  set (K := map (fun a => (a, a)) l). unfold information, entropy1. f_equal. apply map_ext_in. intros [a b] I.
  assert (E : a = b) by (unfold K in I; apply in_map_iff in I; destruct I as (x & X & _); congruence). subst b.
  assert (A : n12 K a a = n1 K a /\ n2 K a = n1 K a).
  { unfold K, n12, n1, n2, freq. rewrite !filter_map, !map_length. cbn [fst snd]. split; do 2 f_equal.
    apply filter_ext. intro x. apply andb_diag. }
  destruct A as [-> ->]. destruct (in_counts K a a I) as (A & B & _). assert (N : (1 <= Z.of_nat (length K))%Z).
  { destruct K; [ destruct I | cbn; lia ]. }
  rewrite INR_IZR_INZ. assert (P : (1 <= n1 K a)%Z) by lia. apply IZR_le in P, N.
  rewrite lg_inv by (apply Rdiv_lt_0_compat; lra). f_equal. field. lra.
Qed.
Lemma normalised_bounds s h1 h2 : 0 <= s -> s <= h1 -> s <= h2 -> (s = 0 \/ (0 < h1 /\ 0 < h2)) -> 0 <= normalise s h1 h2 <= 1.
Proof.
  intros P A B C. unfold normalise. destruct (Rlt_dec 0 h1) as [H1|H1]; [ destruct (Rlt_dec 0 h2) as [H2|H2] |].
  - assert (S : 0 < sqrt (h1 * h2)) by (apply sqrt_lt_R0; nra). assert (L : s <= sqrt (h1 * h2)).
    { rewrite <- (sqrt_square s) by exact P. apply sqrt_le_1_alt. nra. }
    split; [ apply Rmult_le_pos; [ exact P | left; now apply Rinv_0_lt_compat ] |].
    apply Rmult_le_reg_r with (sqrt (h1 * h2)); [ exact S |]. unfold Rdiv. rewrite Rmult_assoc, Rinv_l; lra.
  - destruct C as [->|]; lra.
  - destruct C as [->|]; lra.
Qed.

(** * the code computes the specification *)
Lemma combine_seq (l1 : list Z) : forall l2, length l1 = length l2 -> map (fun e => (nth e l1 0%Z, nth e l2 0%Z)) (seq 0 (length l1)) = combine l1 l2.
Proof.
  induction l1 as [|x l1 IH]; intros [|y l2] L; cbn [length] in *; try lia; [ reflexivity |].
  cbn [seq map combine nth]. f_equal. rewrite <- seq_shift, map_map. cbn [nth]. apply IH. lia.
Qed.
Definition K_of step s1 s2 img1 img2 := labels step (fst (range_of s1 img1)) (fst (range_of s2 img2)) img1 img2.
Lemma bins_pair step s1 s2 img1 img2 e : bins step (mins [s1; s2] [img1; img2]) [img1; img2] e =
  [quantised step (fst (range_of s1 img1)) (nth e img1 0%Z); quantised step (fst (range_of s2 img2)) (nth e img2 0%Z)].
Proof. reflexivity. Qed.
Lemma labels_seq step m1 m2 img1 img2 : length img1 = length img2 ->
  labels step m1 m2 img1 img2 = map (fun e => (quantised step m1 (nth e img1 0%Z), quantised step m2 (nth e img2 0%Z))) (seq 0 (length img1)).
Proof. intro L. unfold labels. rewrite <- combine_seq by exact L. rewrite map_map. reflexivity. Qed.
Lemma labels_length step m1 m2 img1 img2 : length img1 = length img2 -> length (labels step m1 m2 img1 img2) = length img1.
Proof. intro L. unfold labels. rewrite map_length, combine_length. lia. Qed.

Lemma occ_n12 step s1 s2 img1 img2 a b : length img1 = length img2 ->
  occurrences (fun e => key_eqb [a; b] (bins step (mins [s1; s2] [img1; img2]) [img1; img2] e)) (seq 0 (length img1)) = n12 (K_of step s1 s2 img1 img2) a b.
Proof.
  intro L. unfold K_of. rewrite labels_seq by exact L. unfold n12, freq, occurrences. rewrite filter_map, map_length. do 2 f_equal.
  apply filter_ext. intro e. cbn [fst snd]. rewrite bins_pair. set (u := quantised _ _ _). set (v := quantised _ _ _).
  destruct (key_eqb_spec [a; b] [u; v]) as [E|N].
  - injection E as -> ->. now rewrite !Z.eqb_refl.
  - destruct (Z.eqb_spec u a), (Z.eqb_spec v b); try reflexivity. congruence.
Qed.
Lemma occ_n1 step s1 s2 img1 img2 a : length img1 = length img2 ->
  occurrences (fun e => (a =? nth 0 (bins step (mins [s1; s2] [img1; img2]) [img1; img2] e) 0)%Z) (seq 0 (length img1)) = n1 (K_of step s1 s2 img1 img2) a.
Proof.
  intro L. unfold K_of. rewrite labels_seq by exact L. unfold n1, freq, occurrences. rewrite filter_map, map_length. do 2 f_equal.
  apply filter_ext. intro e. cbn [fst snd]. rewrite bins_pair. cbn [nth]. apply Z.eqb_sym.
Qed.
Lemma occ_n2 step s1 s2 img1 img2 a : length img1 = length img2 ->
  occurrences (fun e => (a =? nth 1 (bins step (mins [s1; s2] [img1; img2]) [img1; img2] e) 0)%Z) (seq 0 (length img1)) = n2 (K_of step s1 s2 img1 img2) a.
Proof.
  intro L. unfold K_of. rewrite labels_seq by exact L. unfold n2, freq, occurrences. rewrite filter_map, map_length. do 2 f_equal.
  apply filter_ext. intro e. cbn [fst snd]. rewrite bins_pair. cbn [nth]. apply Z.eqb_sym.
Qed.

Lemma prob_pos n c : (0 < n)%nat -> (0 < prob n c <-> (0 < c)%Z).
Proof.
  intro N. apply lt_0_INR in N. unfold prob. assert (0 < 1 / INR n) by (apply Rdiv_lt_0_compat; lra). split; intro H0.
  - apply lt_IZR. destruct (Rlt_dec 0 (IZR c)) as [|C]; [ assumption |]. exfalso. nra.
  - apply IZR_lt in H0. nra.
Qed.
Lemma rsum_total l : rsum l = total l. Proof. reflexivity. Qed.
(** score of a loop over any duplicate-free list of positions covering the occurring labels *)
Lemma mi_loop_ok K (G : list (Z * Z)) (m1 m2 : Z -> Z) : K <> [] -> NoDup G -> (forall k, In k K -> In k G) ->
  (forall k, In k K -> m1 (fst k) = n1 K (fst k) /\ m2 (snd k) = n2 K (snd k)) ->
  mi_loop (length K) (map (fun k => ([fst k; snd k], n12 K (fst k) (snd k))) G) m1 m2 = information K.
Proof.
  intros NE ND C M. assert (NK : (0 < length K)%nat) by (destruct K; [ congruence | cbn; lia ]).
  unfold mi_loop. rewrite map_map, rsum_total. cbn [fst snd nth].
  assert (RN : 0 < INR (length K)) by now apply lt_0_INR.
  set (g := fun k : Z * Z => (1 / INR (length K)) * lg ((IZR (n12 K (fst k) (snd k)) * INR (length K)) / (IZR (n1 K (fst k)) * IZR (n2 K (snd k))))).
  rewrite (total_ext _ (fun k => IZR (freq (fun x => if pdec x k then true else false) K) * g k)).
  - rewrite sum_keys by assumption. unfold information, mean, g. rewrite map_length, total_scal.
    rewrite (total_ext _ (fun '(a, b) => lg (IZR (n12 K a b) * INR (length K) / (IZR (n1 K a) * IZR (n2 K b))))) by (intros [? ?]; reflexivity).
    field. lra.
  - intros [a b] I. cbn [fst snd]. rewrite <- n12_dec. destruct (in_dec pdec (a, b) K) as [J|NJ].
    + destruct (M _ J) as [E1 E2]. cbn [fst snd] in E1, E2. rewrite E1, E2. destruct (in_counts K a b J) as (A & B & D & _). unfold mi_term, g. cbn [fst snd].
      destruct (Rlt_dec 0 (prob (length K) (n12 K a b))) as [_|F]; [| exfalso; apply F, prob_pos; auto; lia ].
      destruct (Rlt_dec 0 (prob (length K) (n1 K a))) as [_|F]; [| exfalso; apply F, prob_pos; auto; lia ].
      destruct (Rlt_dec 0 (prob (length K) (n2 K b))) as [_|F]; [| exfalso; apply F, prob_pos; auto; lia ].
      change log2 with lg. apply IZR_le in A, B, D. unfold prob.
      replace (IZR (n12 K a b) * (1 / INR (length K)) / (IZR (n1 K a) * (1 / INR (length K))) / (IZR (n2 K b) * (1 / INR (length K)))) with
        (IZR (n12 K a b) * INR (length K) / (IZR (n1 K a) * IZR (n2 K b))) by (field; lra). field. lra.
    + assert (Z0 : n12 K a b = 0%Z).
      { rewrite n12_dec. unfold freq. rewrite filter_none; [ reflexivity |]. intros x J. destruct (pdec x (a, b)) as [->|]; [ contradiction | reflexivity ]. }
      rewrite Z0. unfold mi_term. destruct (Rlt_dec 0 (prob (length K) 0)) as [F|_]; [| lra ]. apply prob_pos in F; [ lia | exact NK ].
Qed.
Lemma entropy_loop_ok K (G : list Z) : K <> [] -> NoDup G -> (forall k, In k K -> In (fst k) G) ->
  entropy_loop (length K) (map (n1 K) G) = entropy1 K.
Proof.
  intros NE ND C. assert (NK : (0 < length K)%nat) by (destruct K; [ congruence | cbn; lia ]).
  assert (RN : 0 < INR (length K)) by now apply lt_0_INR.
  unfold entropy_loop. rewrite map_map, rsum_total.
  set (g := fun a : Z => (1 / INR (length K)) * - lg (IZR (n1 K a) / INR (length K))).
  rewrite (total_ext _ (fun a => IZR (freq (fun x => if Z.eq_dec x a then true else false) (map fst K)) * g a)).
  - rewrite sum_keys; [| exact ND |].
    + rewrite map_map. unfold entropy1, mean, g. rewrite map_length, total_scal.
      rewrite (total_ext _ (fun '(a, _) => - lg (IZR (n1 K a) / INR (length K)))) by (intros [? ?]; reflexivity). field. lra.
    + intros a I. apply in_map_iff in I. destruct I as (k & <- & J). now apply C.
  - intros a I.
    assert (F : freq (fun x => if Z.eq_dec x a then true else false) (map fst K) = n1 K a).
    { unfold freq, n1, freq. rewrite filter_map, map_length. do 2 f_equal. apply filter_ext. intro k. destruct (Z.eq_dec (fst k) a) as [->|N]; [ now rewrite Z.eqb_refl |].
      destruct (Z.eqb_spec (fst k) a); [ contradiction | reflexivity ]. }
    rewrite F. destruct (Rlt_dec 0 (prob (length K) (n1 K a))) as [P|P].
    + apply prob_pos in P; [| exact NK ]. assert (Q : (1 <= n1 K a)%Z) by lia. apply IZR_le in Q. change log2 with lg. unfold g, prob.
      replace (IZR (n1 K a) * (1 / INR (length K))) with (IZR (n1 K a) / INR (length K)) by (field; lra). field. lra.
    + rewrite prob_pos in P by exact NK. assert (0 <= n1 K a)%Z by (unfold n1, freq; lia). replace (n1 K a) with 0%Z by lia. lra.
Qed.
Lemma entropy_loop_ok2 K (G : list Z) : K <> [] -> NoDup G -> (forall k, In k K -> In (snd k) G) ->
  entropy_loop (length K) (map (n2 K) G) = entropy2 K.
Proof.
  intros NE ND C. rewrite <- entropy_swap, <- (entropy_loop_ok (map swap K) G).
  - rewrite map_length. f_equal. apply map_ext. intro a. now rewrite n1_swap.
  - destruct K; [ congruence | discriminate ].
  - exact ND.
  - intros k I. apply in_map_iff in I. destruct I as (k' & <- & J). cbn. now apply C.
Qed.
Lemma entries_look (m : sparse) : NoDup (map fst m) -> m = map (fun k => (k, look m k)) (map fst m).
Proof.
  intro ND. rewrite map_map. rewrite <- (map_id m) at 1. apply map_ext_in. intros [k c] I. cbn [fst]. now rewrite (look_in _ _ _ ND I).
Qed.
Lemma counts_look (m : sparse) : NoDup (map fst m) -> map snd m = map (look m) (map fst m).
Proof. intro ND. rewrite map_map. apply map_ext_in. intros [k c] I. cbn [fst snd]. symmetry. now apply look_in. Qed.

Lemma mutual_info_ok norm step s1 s2 img1 img2 n : inputs_ok step [s1; s2] [img1; img2] n ->
  let K := K_of step s1 s2 img1 img2 in
  mutual_info norm step s1 s2 img1 img2 = Some (if norm then normalise (information K) (entropy1 K) (entropy2 K) else information K).
Proof.
  intros H K. assert (L : length img1 = n /\ length img2 = n).
  { destruct H as (_ & _ & _ & L & _). inversion L as [|? ? A L']; inversion L'; subst; auto. }
  destruct L as [L1 L2]. assert (LL : length img1 = length img2) by lia. assert (N : (0 < n)%nat) by apply H.
  assert (LK : length K = length img1) by now apply labels_length.
  assert (NEK : K <> []) by (intro E; rewrite E in LK; cbn in LK; lia).
  unfold mutual_info. pose proof (sparse_counts _ _ _ _ H) as (margs & joint & E & LM & J & M & _ & _ & _ & ND & _).
  rewrite (sparse_is_tally _ _ _ _ H) in *.
  set (ks := keys_of step [s1; s2] [img1; img2] n) in *.
  assert (EK : ks = map (fun k => [fst k; snd k]) K).
  { unfold ks, keys_of, K, K_of. rewrite labels_seq by exact LL. rewrite map_map, L1. reflexivity. }
  pose proof (keys_length _ _ _ _ H) as KL. fold ks in KL.
  destruct (add_sparse_fst ks 2 KL (map (fun _ => []) [img1; img2], [])) as [LF NF]; [ reflexivity |].
  pose proof (add_sparse_snd ks (map (fun _ => []) [img1; img2], [])) as SN. cbn [snd] in SN.
  assert (E' : fold_left add_sparse ks (map (fun _ => []) [img1; img2], []) = (margs, joint)) by congruence.
  rewrite E' in LF, NF, SN. cbn [fst snd] in LF, NF, SN.
  cbn [bind]. destruct margs as [|m1 [|m2 [|? ?]]]; cbn [length] in LF; try lia.
  rewrite E'.
  pose proof (NF 0%nat ltac:(lia)) as T1. pose proof (NF 1%nat ltac:(lia)) as T2. cbn [nth map] in T1, T2.
  assert (ND1 : NoDup (map fst m1)) by (rewrite T1; apply tally_nodup; constructor).
  assert (ND2 : NoDup (map fst m2)) by (rewrite T2; apply tally_nodup; constructor).
  assert (Q1 : forall a, look m1 [a] = n1 K a).
  { intro a. etransitivity; [ apply (M 0%nat a); cbn; lia |]. rewrite <- L1. apply (occ_n1 step s1 s2 img1 img2 a LL). }
  assert (Q2 : forall a, look m2 [a] = n2 K a).
  { intro a. etransitivity; [ apply (M 1%nat a); cbn; lia |]. rewrite <- L1. apply (occ_n2 step s1 s2 img1 img2 a LL). }
  assert (QJ : forall a b, look joint [a; b] = n12 K a b).
  { intros a b. etransitivity; [ apply J |]. rewrite <- L1. apply (occ_n12 step s1 s2 img1 img2 a b LL). }
  (* positions *)
  set (un2 := fun k : key => (nth 0 k 0%Z, nth 1 k 0%Z)).
  assert (KJ : forall k, In k (map fst joint) -> exists a b, k = [a; b]).
  { intros k I. rewrite SN in I. apply tally_keys in I. destruct I as [[]|I]. rewrite EK in I. apply in_map_iff in I.
    destruct I as ([a b] & <- & _). now exists a, b. }
  assert (EJ : joint = map (fun k => ([fst k; snd k], n12 K (fst k) (snd k))) (map un2 (map fst joint))).
  { rewrite (entries_look joint ND) at 1. rewrite (map_map un2). apply map_ext_in. intros k I. destruct (KJ k I) as (a & b & ->). cbn. now rewrite QJ. }
  assert (S : mi_loop (length img1) joint (fun a => look m1 [a]) (fun b => look m2 [b]) = information K).
  { rewrite EJ, <- LK. apply mi_loop_ok; auto.
    - apply (NoDup_map_NoDup_ForallPairs _ (map fst joint)) || idtac.
      clear -ND KJ. induction (map fst joint) as [|k l IH]; cbn [map]; [ constructor |]. inversion ND; subst. constructor.
      + intro I. apply in_map_iff in I. destruct I as (k' & E & I'). destruct (KJ k (or_introl eq_refl)) as (a & b & ->).
        destruct (KJ k' (or_intror I')) as (a' & b' & ->). unfold un2 in E. cbn in E. injection E as -> ->. contradiction.
      + apply IH; auto. intros; apply KJ; now right.
    - intros [a b] I. apply in_map_iff. exists [a; b]. split; [ reflexivity |]. rewrite SN. apply tally_keys. right. rewrite EK.
      apply in_map_iff. exists (a, b). auto. }
  rewrite S.
  assert (H1 : entropy_loop (length img1) (map snd m1) = entropy1 K).
  { rewrite (counts_look m1 ND1), <- LK. assert (K1 : forall k, In k (map fst m1) -> exists a, k = [a]).
    { intros k I. rewrite T1 in I. apply tally_keys in I. destruct I as [[]|I]. apply in_map_iff in I. destruct I as (x & <- & _). eexists; reflexivity. }
    rewrite <- (entropy_loop_ok K (map (fun k => nth 0 k 0%Z) (map fst m1)) NEK).
    - f_equal. rewrite (map_map (fun k : key => nth 0 k 0%Z)). apply map_ext_in. intros k I. destruct (K1 k I) as (a & ->). apply Q1.
    - clear -ND1 K1. induction (map fst m1) as [|k l IH]; cbn [map]; [ constructor |]. inversion ND1; subst. constructor.
      + intro I. apply in_map_iff in I. destruct I as (k' & E & I'). destruct (K1 k (or_introl eq_refl)) as (a & ->).
        destruct (K1 k' (or_intror I')) as (a' & ->). cbn in E. subst. contradiction.
      + apply IH; auto. intros; apply K1; now right.
    - intros [a b] I. apply in_map_iff. exists [a]. split; [ reflexivity |]. rewrite T1. apply tally_keys. right. rewrite EK, map_map.
      apply in_map_iff. exists (a, b). auto. }
  assert (H2 : entropy_loop (length img1) (map snd m2) = entropy2 K).
  { rewrite (counts_look m2 ND2), <- LK. assert (K1 : forall k, In k (map fst m2) -> exists a, k = [a]).
    { intros k I. rewrite T2 in I. apply tally_keys in I. destruct I as [[]|I]. apply in_map_iff in I. destruct I as (x & <- & _). eexists; reflexivity. }
    rewrite <- (entropy_loop_ok2 K (map (fun k => nth 0 k 0%Z) (map fst m2)) NEK).
    - f_equal. rewrite (map_map (fun k : key => nth 0 k 0%Z)). apply map_ext_in. intros k I. destruct (K1 k I) as (a & ->). apply Q2.
    - clear -ND2 K1. induction (map fst m2) as [|k l IH]; cbn [map]; [ constructor |]. inversion ND2; subst. constructor.
      + intro I. apply in_map_iff in I. destruct I as (k' & E & I'). destruct (K1 k (or_introl eq_refl)) as (a & ->).
        destruct (K1 k' (or_intror I')) as (a' & ->). cbn in E. subst. contradiction.
      + apply IH; auto. intros; apply K1; now right.
    - intros [a b] I. apply in_map_iff. exists [b]. split; [ reflexivity |]. rewrite T2. apply tally_keys. right. rewrite EK, map_map.
      apply in_map_iff. exists (a, b). auto. }
  rewrite H1, H2. reflexivity.
Qed.

Lemma look_dense_nth dims m k o : offset dims k 0 = Some o -> forall c, look_dense dims m k = Some c -> nth (Z.to_nat o) m 0%Z = c.
Proof. intros E c L. unfold look_dense in L. rewrite E in L. cbn [bind] in L. now apply nth_error_nth. Qed.
Lemma offset1 d a : (0 <= a < d)%Z -> offset [d] [a] 0 = Some a.
Proof. intro B. cbn [offset]. destruct (Z.leb_spec 0 a); [| lia ]. destruct (Z.ltb_spec a d); [| lia ]. reflexivity. Qed.
Lemma offset2 d1 d2 a b : (0 <= a < d1)%Z -> (0 <= b < d2)%Z -> offset [d1; d2] [a; b] 0 = Some (a * d2 + b)%Z.
Proof.
  intros B C. cbn [offset]. destruct (Z.leb_spec 0 a); [| lia ]. destruct (Z.ltb_spec a d1); [| lia ].
  destruct (Z.leb_spec 0 b); [| lia ]. destruct (Z.ltb_spec b d2); [| lia ]. reflexivity.
Qed.
Lemma nth_map_seq (m : list Z) : m = map (fun i => nth i m 0%Z) (seq 0 (length m)).
Proof.
  induction m as [|x m IH]; [ reflexivity |]. cbn [length seq map nth]. f_equal. rewrite <- seq_shift, map_map. exact IH.
Qed.
Lemma nodup_znat n : NoDup (map Z.of_nat (seq 0 n)).
Proof. apply FinFun.Injective_map_NoDup; [ intros x y E; lia | apply seq_NoDup ]. Qed.

Lemma mutual_info_dense_ok norm step s1 s2 img1 img2 n : inputs_ok step [s1; s2] [img1; img2] n ->
  mutual_info_dense norm step s1 s2 img1 img2 = mutual_info norm step s1 s2 img1 img2.
Proof.
  intro H. rewrite (mutual_info_ok norm _ _ _ _ _ _ H). set (K := K_of step s1 s2 img1 img2).
  assert (L : length img1 = n /\ length img2 = n).
  { destruct H as (_ & _ & _ & L & _). inversion L as [|? ? A L']; inversion L'; subst; auto. }
  destruct L as [L1 L2]. assert (LL : length img1 = length img2) by lia. assert (N : (0 < n)%nat) by apply H.
  assert (LK : length K = length img1) by now apply labels_length.
  assert (NEK : K <> []) by (intro E; rewrite E in LK; cbn in LK; lia).
  unfold mutual_info_dense. destruct (dense_counts _ _ _ _ H) as (dims & margs & joint & E & LD & LM & J & M & R & F & V).
  rewrite E. cbn [bind]. destruct dims as [|d1 [|d2 [|? ?]]]; cbn [length] in LD; try lia.
  destruct margs as [|m1 [|m2 [|? ?]]]; cbn [length] in LM; try lia.
  inversion F as [|? ? ? ? F1 F']; subst. inversion F' as [|? ? ? ? F2 _]; subst.
  assert (RK : forall k, In k K -> (0 <= fst k < d1)%Z /\ (0 <= snd k < d2)%Z).
  { intros k I. unfold K, K_of in I. rewrite labels_seq in I by exact LL. apply in_map_iff in I. destruct I as (e & <- & Ie). apply in_seq in Ie.
    specialize (R e ltac:(lia)). rewrite bins_pair in R. inversion R as [|? ? ? ? R1 R']; subst. inversion R' as [|? ? ? ? R2 _]; subst. cbn [fst snd]. auto. }
  assert (P : (0 < d1)%Z /\ (0 < d2)%Z) by (destruct K as [|k K']; [ congruence |]; destruct (RK k (or_introl eq_refl)); lia). destruct P as [P1 P2].
  assert (Q1 : forall a, (0 <= a < d1)%Z -> nth (Z.to_nat a) m1 0%Z = n1 K a).
  { intros a B. apply (look_dense_nth [d1] m1 [a] a (offset1 _ _ B)). etransitivity; [ apply (M 0%nat a); [ cbn; lia | exact B ] |].
    f_equal. apply (occ_n1 step s1 s2 img1 img2 a LL). }
  assert (Q2 : forall a, (0 <= a < d2)%Z -> nth (Z.to_nat a) m2 0%Z = n2 K a).
  { intros a B. apply (look_dense_nth [d2] m2 [a] a (offset1 _ _ B)). etransitivity; [ apply (M 1%nat a); [ cbn; lia | exact B ] |].
    f_equal. apply (occ_n2 step s1 s2 img1 img2 a LL). }
  assert (QJ : forall a b, (0 <= a < d1)%Z -> (0 <= b < d2)%Z -> nth (Z.to_nat (a * d2 + b)) joint 0%Z = n12 K a b).
  { intros a b A B. apply (look_dense_nth [d1; d2] joint [a; b] _ (offset2 _ _ _ _ A B)). etransitivity; [ apply J; repeat constructor; lia |].
    f_equal. apply (occ_n12 step s1 s2 img1 img2 a b LL). }
  assert (V' : length joint = Z.to_nat (d1 * d2)) by (rewrite V; unfold volume; cbn [fold_right]; f_equal; lia).
  set (pos := fun o : nat => (Z.of_nat o / d2, Z.of_nat o mod d2)%Z).
  assert (EJ : dense_entries d1 d2 joint = map (fun k => ([fst k; snd k], n12 K (fst k) (snd k))) (map pos (seq 0 (length joint)))).
  { unfold dense_entries. rewrite map_map. apply map_ext_in. intros o I. apply in_seq in I. cbn [pos fst snd]. f_equal.
    pose proof (Z.div_mod (Z.of_nat o) d2 ltac:(lia)) as DM. pose proof (Z.mod_pos_bound (Z.of_nat o) d2 ltac:(lia)) as MB.
    assert (DB : (0 <= Z.of_nat o / d2 < d1)%Z).
    { split; [ apply Z.div_pos; lia |]. apply Z.div_lt_upper_bound; lia. }
    rewrite <- QJ by assumption. f_equal. lia. }
  assert (S : mi_loop (length img1) (dense_entries d1 d2 joint) (fun a => nth (Z.to_nat a) m1 0%Z) (fun b => nth (Z.to_nat b) m2 0%Z) = information K).
  { rewrite EJ, <- LK. apply mi_loop_ok; auto.
    - apply FinFun.Injective_map_NoDup; [| apply seq_NoDup ]. intros x y X. unfold pos in X. injection X as X1 X2.
      pose proof (Z.div_mod (Z.of_nat x) d2 ltac:(lia)). pose proof (Z.div_mod (Z.of_nat y) d2 ltac:(lia)). rewrite X1, X2 in *. lia.
    - intros [a b] I. destruct (RK _ I) as [A B]. cbn [fst snd] in A, B. apply in_map_iff. exists (Z.to_nat (a * d2 + b)).
      assert (0 <= a * d2)%Z by (apply Z.mul_nonneg_nonneg; lia). split.
      + unfold pos. rewrite Z2Nat.id by lia. f_equal; symmetry.
        * apply (Z.div_unique _ _ _ b); lia.
        * apply (Z.mod_unique _ _ a); lia.
      + apply in_seq. rewrite V'. assert ((a + 1) * d2 <= d1 * d2)%Z by (apply Z.mul_le_mono_nonneg_r; lia). lia.
    - intros k I. destruct (RK k I). split; [ now apply Q1 | now apply Q2 ]. }
  rewrite S.
  assert (H1 : entropy_loop (length img1) m1 = entropy1 K).
  { rewrite (nth_map_seq m1), <- LK. rewrite <- (entropy_loop_ok K (map Z.of_nat (seq 0 (length m1))) NEK (nodup_znat _)).
    - f_equal. rewrite (map_map Z.of_nat). apply map_ext_in. intros i I. apply in_seq in I. rewrite <- Q1 by lia. now rewrite Nat2Z.id.
    - intros k I. destruct (RK k I) as [A _]. apply in_map_iff. exists (Z.to_nat (fst k)). split; [ lia |]. apply in_seq. lia. }
  assert (H2 : entropy_loop (length img1) m2 = entropy2 K).
  { rewrite (nth_map_seq m2), <- LK. rewrite <- (entropy_loop_ok2 K (map Z.of_nat (seq 0 (length m2))) NEK (nodup_znat _)).
    - f_equal. rewrite (map_map Z.of_nat). apply map_ext_in. intros i I. apply in_seq in I. rewrite <- Q2 by lia. now rewrite Nat2Z.id.
    - intros k I. destruct (RK k I) as [_ A]. apply in_map_iff. exists (Z.to_nat (snd k)). split; [ lia |]. apply in_seq. lia. }
  rewrite H1, H2. reflexivity.
Qed.

(** statements of the property file *)
Lemma pair_lower step s1 s2 img1 img2 n : inputs_ok step [s1; s2] [img1; img2] n ->
  lower_end s1 img1 (fst (range_of s1 img1)) /\ lower_end s2 img2 (fst (range_of s2 img2)).
Proof.
  intro H. destruct (lower_ends _ _ _ _ H) as [_ B]. destruct (B 0%nat s1 img1 eq_refl eq_refl) as (a & E & A).
  destruct (B 1%nat s2 img2 eq_refl eq_refl) as (b & F & C). cbn in E, F. injection E as <-. injection F as <-. auto.
Qed.
Lemma score_is_information step s1 s2 img1 img2 n : inputs_ok step [s1; s2] [img1; img2] n ->
  exists mn1 mn2, lower_end s1 img1 mn1 /\ lower_end s2 img2 mn2 /\
    mutual_info false step s1 s2 img1 img2 = Some (information (labels step mn1 mn2 img1 img2)).
Proof.
  intro H. destruct (pair_lower _ _ _ _ _ _ H) as [A B]. exists (fst (range_of s1 img1)), (fst (range_of s2 img2)).
  split; [ exact A |]. split; [ exact B |]. exact (mutual_info_ok false _ _ _ _ _ _ H).
Qed.
Lemma score_bounds step s1 s2 img1 img2 n : inputs_ok step [s1; s2] [img1; img2] n ->
  exists mn1 mn2 s, lower_end s1 img1 mn1 /\ lower_end s2 img2 mn2 /\ mutual_info false step s1 s2 img1 img2 = Some s /\
    0 <= s <= entropy1 (labels step mn1 mn2 img1 img2) /\ s <= entropy2 (labels step mn1 mn2 img1 img2) /\
    (s = 0 <-> independent (labels step mn1 mn2 img1 img2)).
Proof.
  intro H. destruct (score_is_information _ _ _ _ _ _ H) as (m1 & m2 & A & B & E). exists m1, m2, (information (labels step m1 m2 img1 img2)).
  split; [ exact A |]. split; [ exact B |]. split; [ exact E |].
  split; [ split; [ apply information_nonneg | apply information_le1 ] |]. split; [ apply information_le2 |]. symmetry. apply information_independent.
Qed.
Lemma labels_swap step m1 m2 img1 : forall img2, labels step m2 m1 img2 img1 = map swap (labels step m1 m2 img1 img2).
Proof. unfold labels. induction img1 as [|x l IH]; intros [|y l2]; cbn [combine map]; auto. f_equal. apply IH. Qed.
Lemma inputs_swap step s1 s2 img1 img2 n : inputs_ok step [s1; s2] [img1; img2] n -> inputs_ok step [s2; s1] [img2; img1] n.
Proof.
  intros (A & B & C & D & E). inversion D as [|? ? D1 D']; inversion D' as [|? ? D2 _]; inversion E as [|? ? ? ? E1 E']; inversion E' as [|? ? ? ? E2 _]; subst.
  split; [ exact A |]. split; [ discriminate |]. split; [ assumption |]. split; [ constructor; [ exact D2 | constructor; [ reflexivity | constructor ] ] |]. constructor; [ exact E2 | constructor; [ exact E1 | constructor ] ].
Qed.
Lemma score_symmetric norm step s1 s2 img1 img2 n : inputs_ok step [s1; s2] [img1; img2] n ->
  mutual_info norm step s2 s1 img2 img1 = mutual_info norm step s1 s2 img1 img2.
Proof.
  intro H. rewrite (mutual_info_ok norm _ _ _ _ _ _ H), (mutual_info_ok norm _ _ _ _ _ _ (inputs_swap _ _ _ _ _ _ H)).
  unfold K_of. rewrite labels_swap. set (K := labels _ _ _ img1 img2).
  assert (S : entropy2 (map swap K) = entropy1 K).
  { rewrite <- entropy_swap, map_map. f_equal. rewrite <- (map_id K) at 2. apply map_ext. now intros [? ?]. }
  rewrite information_swap, entropy_swap, S. f_equal. destruct norm; [| reflexivity ]. unfold normalise.
  destruct (Rlt_dec 0 (entropy1 K)), (Rlt_dec 0 (entropy2 K)); try reflexivity. now rewrite (Rmult_comm (entropy2 K)).
Qed.
Lemma normalised_score step s1 s2 img1 img2 n : inputs_ok step [s1; s2] [img1; img2] n ->
  exists s, mutual_info true step s1 s2 img1 img2 = Some s /\ 0 <= s <= 1.
Proof.
  intro H. rewrite (mutual_info_ok true _ _ _ _ _ _ H). set (K := K_of step s1 s2 img1 img2). eexists. split; [ reflexivity |].
  pose proof (information_nonneg K). pose proof (information_le1 K). pose proof (information_le2 K). apply normalised_bounds; auto.
  destruct (Req_dec (information K) 0); [ now left | right; lra ].
Qed.
Lemma labels_self step m img : labels step m m img img = map (fun a => (a, a)) (map (fun v => ((v - m) / step)%Z) img).
Proof. unfold labels. induction img as [|x l IH]; cbn [combine map]; [ reflexivity |]. f_equal. exact IH. Qed.
Lemma self_score step s img n : inputs_ok step [s; s] [img; img] n -> exists mn, lower_end s img mn /\
  mutual_info false step s s img img = Some (entropy1 (labels step mn mn img img)) /\
  (0 < entropy1 (labels step mn mn img img) -> mutual_info true step s s img img = Some 1).
Proof.
  intro H. exists (fst (range_of s img)). destruct (pair_lower _ _ _ _ _ _ H) as [A _]. split; [ exact A |].
  rewrite (mutual_info_ok true _ _ _ _ _ _ H), (mutual_info_ok false _ _ _ _ _ _ H). unfold K_of. rewrite labels_self.
  set (l := map _ img). rewrite information_self. set (K := map (fun a => (a, a)) l). split; [ reflexivity |]. intro P.
  assert (E : entropy2 K = entropy1 K).
  { rewrite <- entropy_swap. f_equal. unfold K. rewrite map_map. reflexivity. }
  rewrite E. unfold normalise. destruct (Rlt_dec 0 (entropy1 K)); [| contradiction ]. f_equal. rewrite sqrt_square by lra. field. lra.
Qed.
Lemma fast_zero jointHist m1 m2 : mutual_info_fast [] jointHist m1 m2 = 0.
Proof. reflexivity. Qed.

Lemma mean_two x y : mean [x; y] = (x + y) / 2.
Proof. unfold mean, total. cbn [fold_right length INR]. field. Qed.
Lemma ex_copy : mutual_info false 2 None None [5; 7]%Z [30; 20]%Z = Some 1.
Proof.
  assert (H : inputs_ok 2 [None; None] [[5; 7]; [30; 20]]%Z 2).
  { split; [ lia |]. split; [ discriminate |]. split; [ lia |]. split; [ repeat constructor |].
    constructor; [| constructor; [| constructor ]]; cbn; intros v w A B; intuition lia. }
  rewrite (mutual_info_ok false _ _ _ _ _ _ H). f_equal. unfold information.
  change (K_of 2 None None [5; 7]%Z [30; 20]%Z) with [(0, 5); (1, 0)]%Z. cbn [map]. rewrite mean_two.
  change (n12 [(0, 5); (1, 0)]%Z 0 5) with 1%Z. change (n12 [(0, 5); (1, 0)]%Z 1 0) with 1%Z.
  change (n1 [(0, 5); (1, 0)]%Z 0) with 1%Z. change (n1 [(0, 5); (1, 0)]%Z 1) with 1%Z.
  change (n2 [(0, 5); (1, 0)]%Z 5) with 1%Z. change (n2 [(0, 5); (1, 0)]%Z 0) with 1%Z.
  cbn [length INR]. replace (1 * (1 + 1) / (1 * 1)) with 2 by field. unfold lg. field. pose proof ln2_pos. lra.
Qed.
Lemma ex_inputs : inputs_ok 2 [None; None] [[5; 7]; [30; 20]]%Z 2.
Proof.
  split; [ lia |]. split; [ discriminate |]. split; [ lia |]. split; [ repeat constructor |].
  constructor; [| constructor; [| constructor ]]; cbn; intros v w A B; intuition lia.
Qed.
Lemma fast_wrong : exists step img1 img2 n s, inputs_ok step [None; None] [img1; img2] n /\ mutual_info false step None None img1 img2 = Some s /\ s <> 0 /\
  forall jointHist m1 m2, mutual_info_fast [] jointHist m1 m2 = 0.
Proof.
  exists 2%Z, [5; 7]%Z, [30; 20]%Z, 2%nat, 1. split; [ exact ex_inputs |]. split; [ exact ex_copy |]. split; [ lra |]. intros; reflexivity.
Qed.
