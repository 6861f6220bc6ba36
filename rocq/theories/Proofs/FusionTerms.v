(* Proofs about Model.FusionTerms. *)
From Coq Require Import ZArith List Bool Lia Permutation Sorted.
From Verif Require Import Lib.Grid Model.FusionTerms Spec.FusionTerms.
Import ListNotations.
Local Open Scope Z_scope.

Lemma total_app a b : total (a ++ b) = total a + total b.
Proof. induction a; cbn [app total fold_right]; [ reflexivity |]. fold (total (a0 ++ b)) (total a0). lia. Qed.
Lemma total_map_ext {A} (f g : A -> Z) l : (forall x, In x l -> f x = g x) -> total (map f l) = total (map g l).
Proof. intro H. f_equal. apply map_ext_in. exact H. Qed.
Lemma total_plus {A} (f g : A -> Z) l : total (map (fun x => f x + g x) l) = total (map f l) + total (map g l).
Proof. induction l; cbn [map total fold_right]; [ reflexivity |]. fold (total (map (fun x => f x + g x) l)) (total (map f l)) (total (map g l)). lia. Qed.
Lemma total_scale {A} (f : A -> Z) k l : total (map (fun x => k * f x) l) = k * total (map f l).
Proof. induction l; cbn [map total fold_right]; [ lia |]. fold (total (map (fun x => k * f x) l)) (total (map f l)). lia. Qed.
Lemma total_zero {A} (f : A -> Z) l : (forall x, In x l -> f x = 0) -> total (map f l) = 0.
Proof. intro H. induction l; cbn [map total fold_right]; [ reflexivity |]. fold (total (map f l)). rewrite H by now left. rewrite IHl; [ reflexivity |]. intros; apply H; now right. Qed.
Lemma total_perm a b : Permutation a b -> total a = total b.
Proof. induction 1; cbn [total fold_right] in *; unfold total in *; try lia. Qed.
Lemma total_nonneg l : (forall x, In x l -> 0 <= x) -> 0 <= total l.
Proof. induction l; cbn [total fold_right]; intro H; [ lia |]. fold (total l). specialize (IHl (fun x I => H x (or_intror I))). specialize (H a (or_introl eq_refl)). lia. Qed.

(* the numbers below 2k are the doubles, and the doubles plus one, of the numbers below k *)
Lemma zseq_double n : zseq 0 (2 * n) = flat_map (fun m => [2 * m; 2 * m + 1]) (zseq 0 n).
Proof.
  induction n as [|n IH]; [ reflexivity |]. replace (2 * S n)%nat with (2 * n + 2)%nat by lia. replace (S n) with (n + 1)%nat by lia.
  rewrite !zseq_app, IH, flat_map_app. f_equal. rewrite Nat2Z.inj_mul. change (zseq (0 + Z.of_nat n) 1) with (map (fun i => (0 + Z.of_nat n) + Z.of_nat i) [0%nat]).
  unfold zseq. cbn [seq map flat_map app]. f_equal; [ lia |]. f_equal. lia.
Qed.
Lemma total_double (F : Z -> Z) n : total (map F (zrange 0 (2 ^ (Z.of_nat (S n))))) = total (map (fun m => F (2 * m) + F (2 * m + 1)) (zrange 0 (2 ^ Z.of_nat n))).
Proof.
  unfold zrange. rewrite Nat2Z.inj_succ, Z.pow_succ_r by lia. rewrite Z2Nat.inj_mul by lia. change (Z.to_nat 2) with 2%nat. rewrite zseq_double.
  generalize (zseq 0 (Z.to_nat (2 ^ Z.of_nat n))). induction l as [|a l IH]; [ reflexivity |]. cbn [flat_map map app]. cbn [total fold_right].
  fold (total (map F (flat_map (fun m => [2 * m; 2 * m + 1]) l))). rewrite IH. cbn [map total fold_right]. fold (total (map (fun m => F (2 * m) + F (2 * m + 1)) l)). lia.
Qed.

Definition bit (b : bool) (m : Z) : Z := if b then 2 * m + 1 else 2 * m.
Lemma bit_low b m : Z.testbit (bit b m) 0 = b.
Proof. destruct b; cbn [bit]; [ apply Z.testbit_odd_0 | apply Z.testbit_even_0 ]. Qed.
Lemma bit_high b m i : 0 <= i -> Z.testbit (bit b m) (Z.succ i) = Z.testbit m i.
Proof. destruct b; cbn [bit]; intro; [ now apply Z.testbit_odd_succ | now apply Z.testbit_even_succ ]. Qed.
Lemma testbit_inj a b : (forall i, 0 <= i -> Z.testbit a i = Z.testbit b i) -> a = b.
Proof. intro H. apply Z.bits_inj'. exact H. Qed.

Lemma within_spec a s : within a s = true <-> forall i, 0 <= i -> Z.testbit a i = true -> Z.testbit s i = true.
Proof.
  unfold within. rewrite Z.eqb_eq. split.
  - intros E i Hi Ha. assert (X : Z.testbit (Z.land a (Z.lnot s)) i = false) by (rewrite E; apply Z.bits_0). rewrite Z.land_spec, Z.lnot_spec, Ha in X by lia. destruct (Z.testbit s i); [ reflexivity | discriminate X ].
  - intro H. apply testbit_inj. intros i Hi. rewrite Z.bits_0, Z.land_spec, Z.lnot_spec by lia. specialize (H i Hi). destruct (Z.testbit a i); [ rewrite H by reflexivity |]; reflexivity.
Qed.
Lemma within_bit ba a bs s : within (bit ba a) (bit bs s) = implb ba bs && within a s.
Proof.
  apply eq_true_iff_eq. rewrite andb_true_iff, !within_spec. split.
  - intro H. split.
    + specialize (H 0 (Z.le_refl 0)). rewrite !bit_low in H. destruct ba, bs; try reflexivity. discriminate (H eq_refl).
    + intros i Hi. specialize (H (Z.succ i) ltac:(lia)). rewrite !bit_high in H by lia. exact H.
  - intros [Hb H] i Hi. destruct (Z.eq_dec i 0) as [->|N].
    + rewrite !bit_low. destruct ba, bs; try reflexivity; discriminate.
    + replace i with (Z.succ (i - 1)) by lia. rewrite !bit_high by lia. apply H. lia.
Qed.
Lemma lxor_bit ba a bs s : Z.lxor (bit ba a) (bit bs s) = bit (xorb ba bs) (Z.lxor a s).
Proof.
  apply testbit_inj. intros i Hi. rewrite Z.lxor_spec. destruct (Z.eq_dec i 0) as [->|N].
  - now rewrite !bit_low.
  - replace i with (Z.succ (i - 1)) by lia. rewrite !bit_high by lia. now rewrite Z.lxor_spec.
Qed.
Definition odd_bits (n m : Z) : bool := fold_left (fun b i => xorb b (Z.testbit m i)) (zrange 0 n) false.
Lemma fold_xorb (f : Z -> bool) l b : fold_left (fun b i => xorb b (f i)) l b = xorb b (fold_left (fun b i => xorb b (f i)) l false).
Proof. revert b. induction l as [|a l IH]; intro b; cbn [fold_left]; [ now rewrite xorb_false_r |]. rewrite IH, (IH (xorb false (f a))), xorb_false_l. apply xorb_assoc. Qed.
Lemma odd_bits_bit n b m : odd_bits (Z.of_nat (S n)) (bit b m) = xorb b (odd_bits (Z.of_nat n) m).
Proof.
  unfold odd_bits, zrange. rewrite !Nat2Z.id, zseq_S. cbn [fold_left]. rewrite bit_low, xorb_false_l, fold_xorb. f_equal.
  replace (0 + 1) with (0 + 1) by lia. rewrite (zseq_shift 0 1). generalize false as acc.
  assert (H : forall i, In i (zseq 0 n) -> 0 <= i) by (intros i I; apply in_zseq in I; lia). revert H. generalize (zseq 0 n).
  induction l as [|a l IH]; intros H acc; [ reflexivity |]. cbn [map fold_left]. rewrite IH by (intros; apply H; now right).
  replace (a + 1) with (Z.succ a) by lia. rewrite bit_high by (apply H; now left). reflexivity.
Qed.
Lemma parity_odd n a s : parity n a s = odd_bits n (Z.lxor a s).
Proof. reflexivity. Qed.

(* Moebius inversion on masks: the signed sums of the subsets add up to the function *)
Definition signed (n : Z) (f : Z -> Z) (s a : Z) : Z := if within a s then (if parity n a s then - f a else f a) else 0.
Definition signed_sum (n : nat) (f : Z -> Z) (s : Z) : Z := total (map (signed (Z.of_nat n) f s) (zrange 0 (2 ^ Z.of_nat n))).
Definition all_sum (n : nat) (f : Z -> Z) (x : Z) : Z := total (map (fun s => if within s x then signed_sum n f s else 0) (zrange 0 (2 ^ Z.of_nat n))).

Lemma signed_bit n f s bs a ba : signed (Z.of_nat (S n)) f (bit bs s) (bit ba a) =
  if implb ba bs then (if xorb ba bs then - signed (Z.of_nat n) (fun m => f (bit ba m)) s a else signed (Z.of_nat n) (fun m => f (bit ba m)) s a) else 0.
Proof.
  unfold signed. rewrite within_bit, !parity_odd, lxor_bit, odd_bits_bit. destruct ba, bs; cbn [implb andb xorb]; destruct (within a s); try reflexivity; destruct (odd_bits (Z.of_nat n) (Z.lxor a s)); cbn [xorb]; lia.
Qed.
Lemma signed_sum_bit n f bs s : signed_sum (S n) f (bit bs s) =
  if bs then signed_sum n (fun m => f (bit true m)) s - signed_sum n (fun m => f (bit false m)) s else signed_sum n (fun m => f (bit false m)) s.
Proof.
  unfold signed_sum. rewrite total_double. rewrite total_plus.
  assert (E0 : total (map (fun m => signed (Z.of_nat (S n)) f (bit bs s) (2 * m)) (zrange 0 (2 ^ Z.of_nat n))) =
               (if bs then -1 else 1) * total (map (signed (Z.of_nat n) (fun m => f (bit false m)) s) (zrange 0 (2 ^ Z.of_nat n)))).
  { rewrite <- total_scale. apply total_map_ext. intros m _. change (2 * m) with (bit false m). rewrite signed_bit. destruct bs; cbn [implb xorb]; lia. }
  assert (E1 : total (map (fun m => signed (Z.of_nat (S n)) f (bit bs s) (2 * m + 1)) (zrange 0 (2 ^ Z.of_nat n))) =
               (if bs then 1 else 0) * total (map (signed (Z.of_nat n) (fun m => f (bit true m)) s) (zrange 0 (2 ^ Z.of_nat n)))).
  { rewrite <- total_scale. apply total_map_ext. intros m _. change (2 * m + 1) with (bit true m). rewrite signed_bit. destruct bs; cbn [implb xorb]; lia. }
  rewrite E0, E1. destruct bs; lia.
Qed.
Lemma all_sum_bit n f b x : all_sum (S n) f (bit b x) = all_sum n (fun m => f (bit b m)) x.
Proof.
  unfold all_sum. rewrite total_double. apply eq_trans with (total (map (fun s => if within s x then signed_sum n (fun m => f (bit b m)) s else 0) (zrange 0 (2 ^ Z.of_nat n)))); [| reflexivity ].
  apply total_map_ext. intros s _. change (2 * s + 1) with (bit true s). change (2 * s) with (bit false s). rewrite !within_bit, !signed_sum_bit.
  destruct b; cbn [implb andb]; destruct (within s x); lia.
Qed.
Lemma mask_bit n x : 0 <= x < 2 ^ Z.of_nat (S n) -> exists b y, x = bit b y /\ 0 <= y < 2 ^ Z.of_nat n.
Proof.
  rewrite Nat2Z.inj_succ, Z.pow_succ_r by lia. intro H. exists (Z.odd x), (x / 2). pose proof (Z.div_mod x 2 ltac:(lia)) as D. rewrite Zmod_odd in D. split.
  - unfold bit. destruct (Z.odd x); lia.
  - split; [ apply Z.div_pos; lia | apply Z.div_lt_upper_bound; lia ].
Qed.
Lemma moebius n : forall f x, 0 <= x < 2 ^ Z.of_nat n -> all_sum n f x = f x.
Proof.
  induction n as [|n IH]; intros f x H.
  - change (2 ^ Z.of_nat 0) with 1 in H. replace x with 0 by lia. unfold all_sum, signed_sum. change (2 ^ Z.of_nat 0) with 1. change (zrange 0 1) with [0]. cbn [map]. unfold signed, within, parity. cbn [Z.land Z.eqb Z.lxor]. change (zrange 0 (Z.of_nat 0)) with (@nil Z). cbn [fold_left total fold_right]. lia.
  - destruct (mask_bit _ _ H) as (b & y & -> & Hy). now rewrite all_sum_bit, IH.
Qed.

(* the loops of the code are those sums *)
Section Clique.
  Variables (alpha : Z) (labeling : Z -> Z) (c : clique).
  Let f (m : Z) := cost c (fused alpha labeling c m).
  Let n := length (places c).

  Lemma add_assignment_spec l coeffs a s : NoDup l -> 
    fold_left (fun co subset => if within a subset then (fun s => if s =? subset then co s + (if parity (order c) a subset then - f a else f a) else co s) else co) l coeffs s =
    coeffs s + (if existsb (Z.eqb s) l then signed (order c) f s a else 0).
  Proof.
    intro N. revert coeffs. induction N as [|b l I N IH]; intro coeffs; cbn [fold_left existsb]; [ lia |]. rewrite IH. clear IH.
    destruct (s =? b) eqn:E; cbn [orb].
    - apply Z.eqb_eq in E. subst b. assert (X : existsb (Z.eqb s) l = false) by (destruct (existsb (Z.eqb s) l) eqn:E; [| reflexivity ]; apply existsb_exists in E; destruct E as (y & Iy & Ey); apply Z.eqb_eq in Ey; subst y; contradiction).
      rewrite X. unfold signed. destruct (within a s); [ rewrite Z.eqb_refl |]; lia.
    - destruct (within a b); [ rewrite E |]; reflexivity.
  Qed.
  Lemma in_range_existsb s : existsb (Z.eqb s) (zrange 1 (2 ^ order c - 1)) = ((1 <=? s) && (s <? 2 ^ order c)).
  Proof.
    apply eq_true_iff_eq. rewrite existsb_exists, andb_true_iff, Z.leb_le, Z.ltb_lt. split.
    - intros (y & I & E). apply Z.eqb_eq in E. subst y. apply in_zrange in I. lia.
    - intro H. exists s. split; [ apply in_zrange; lia | apply Z.eqb_refl ].
  Qed.
  Lemma coefficients_spec s : 1 <= s < 2 ^ order c -> coefficients alpha labeling c s = signed_sum n f s.
  Proof.
    intro H. unfold coefficients, signed_sum. fold n. change (2 ^ Z.of_nat n) with (2 ^ order c).
    assert (G : forall l coeffs, fold_left (add_assignment alpha labeling c) l coeffs s = coeffs s + total (map (signed (order c) f s) l)).
    { induction l as [|a l IH]; intro coeffs; cbn [fold_left map total fold_right]; [ lia |]. rewrite IH. unfold add_assignment at 1. fold f. rewrite add_assignment_spec by apply nodup_zseq. rewrite in_range_existsb.
      destruct (1 <=? s) eqn:E1; [| lia ]. destruct (s <? 2 ^ order c) eqn:E2; [| lia ]. cbn [andb]. fold (total (map (signed (order c) f s) l)). lia. }
    rewrite G. reflexivity.
  Qed.
End Clique.

Lemma sort_perm l : Permutation (sort l) l.
Proof.
  induction l as [|a l IH]; [ constructor |]. cbn [sort fold_right]. fold (sort l). assert (P : forall m, Permutation (insert a m) (a :: m)).
  { induction m as [|b m IHm]; [ constructor; constructor |]. cbn [insert]. destruct (a <=? b); [ reflexivity |]. rewrite IHm. apply perm_swap. }
  rewrite P. now constructor.
Qed.
Lemma insert_sorted a m : Sorted Z.le m -> Sorted Z.le (insert a m).
Proof.
  induction 1 as [|b m Sm IH Hb]; [ repeat constructor |]. cbn [insert]. destruct (a <=? b) eqn:E.
  - apply Z.leb_le in E. repeat constructor; assumption.
  - apply Z.leb_gt in E. constructor; [ exact IH |]. destruct m as [|d m]; cbn [insert]; [ constructor; lia |]. inversion Hb; subst. destruct (a <=? d); constructor; lia.
Qed.
Lemma sort_sorted l : Sorted Z.le (sort l).
Proof. induction l; cbn [sort fold_right]; [ constructor |]. now apply insert_sorted. Qed.
Lemma forallb_perm (x : Z -> bool) a b : Permutation a b -> forallb x a = forallb x b.
Proof. induction 1; cbn [forallb]; auto; try congruence. rewrite !andb_assoc. f_equal. apply andb_comm. Qed.

(* the mask of the taken variables *)
Fixpoint mask_of (x : Z -> bool) (ns : list Z) : Z := match ns with [] => 0 | n :: ns' => bit (x n) (mask_of x ns') end.
Lemma mask_range x ns : 0 <= mask_of x ns < 2 ^ Z.of_nat (length ns).
Proof. induction ns as [|n ns IH]; cbn [mask_of length]; [ cbn; lia |]. rewrite Nat2Z.inj_succ, Z.pow_succ_r by lia. unfold bit. destruct (x n); lia. Qed.
Lemma fused_shift alpha labeling ps : forall i m b, 0 <= i -> fused_from (Z.succ i) alpha labeling ps (bit b m) = fused_from i alpha labeling ps m.
Proof. induction ps as [|p ps IH]; intros i m b Hi; [ reflexivity |]. cbn [fused_from]. rewrite bit_high by lia. f_equal. replace (Z.succ i + 1) with (Z.succ (i + 1)) by lia. apply IH. lia. Qed.
Lemma fused_mask x alpha labeling : forall ns ps, length ns = length ps -> fused_from 0 alpha labeling ps (mask_of x ns) = relabelled x alpha labeling ns ps.
Proof.
  induction ns as [|n ns IH]; intros [|p ps] L; try discriminate L; [ reflexivity |]. cbn [mask_of fused_from relabelled]. rewrite bit_low. f_equal. change (0 + 1) with (Z.succ 0). rewrite fused_shift by lia. apply IH. now injection L.
Qed.
Lemma fused_none alpha labeling ps : forall i, fused_from i alpha labeling ps 0 = map labeling ps.
Proof. induction ps as [|p ps IH]; intro i; [ reflexivity |]. cbn [fused_from map]. now rewrite Z.bits_0, IH. Qed.
Lemma chosen_shift ns : forall i m b, 0 <= i -> chosen_from (Z.succ i) ns (bit b m) = chosen_from i ns m.
Proof. induction ns as [|p ps IH]; intros i m b Hi; [ reflexivity |]. cbn [chosen_from]. rewrite bit_high by lia. replace (Z.succ i + 1) with (Z.succ (i + 1)) by lia. rewrite IH by lia. reflexivity. Qed.
Lemma chosen_taken x : forall ns s, 0 <= s < 2 ^ Z.of_nat (length ns) -> forallb x (chosen_from 0 ns s) = within s (mask_of x ns).
Proof.
  induction ns as [|n ns IH]; intros s H; cbn [length] in H.
  - change (2 ^ Z.of_nat 0) with 1 in H. replace s with 0 by lia. reflexivity.
  - destruct (mask_bit _ _ H) as (b & y & -> & Hy). cbn [chosen_from mask_of]. rewrite bit_low, within_bit. change (0 + 1) with (Z.succ 0). rewrite chosen_shift, <- IH by lia. destruct b; cbn [forallb implb andb]; [ destruct (x n) |]; reflexivity.
Qed.

Lemma zrange_first n : 0 < n -> zrange 0 n = 0 :: zrange 1 (n - 1).
Proof. intro H. unfold zrange. replace (Z.to_nat n) with (S (Z.to_nat (n - 1))) by lia. now rewrite zseq_S. Qed.

Lemma terms_are_the_change x alpha labeling c : length (nodes c) = length (places c) ->
  terms_value x (factor_terms alpha labeling c) = cost c (relabelled x alpha labeling (nodes c) (places c)) - cost c (map labeling (places c)).
Proof.
  intro L. set (f := fun m => cost c (fused alpha labeling c m)). assert (E : all_sum (length (places c)) f (mask_of x (nodes c)) = f (mask_of x (nodes c))) by (apply moebius; rewrite <- L; apply mask_range).
  unfold f at 2 in E. unfold fused in E. rewrite fused_mask in E by exact L. unfold all_sum in E. rewrite zrange_first in E by (apply Z.pow_pos_nonneg; lia). cbn [map total fold_right] in E.
  assert (E0 : (if within 0 (mask_of x (nodes c)) then signed_sum (length (places c)) f 0 else 0) = f 0).
  { change (within 0 (mask_of x (nodes c))) with true. cbn match. unfold signed_sum. rewrite zrange_first by (apply Z.pow_pos_nonneg; lia). cbn [map total fold_right].
    fold (total (map (signed (Z.of_nat (length (places c))) f 0) (zrange 1 (2 ^ Z.of_nat (length (places c)) - 1)))). rewrite total_zero.
    - unfold signed, parity. cbn [within Z.land Z.eqb Z.lxor]. assert (X : odd_bits (Z.of_nat (length (places c))) 0 = false).
      { unfold odd_bits. generalize (zrange 0 (Z.of_nat (length (places c)))). induction l as [|a l IH]; [ reflexivity |]. cbn [fold_left]. rewrite Z.bits_0. exact IH. }
      unfold odd_bits in X. rewrite X. change (within 0 0) with true. cbn match. lia.
    - intros a I. apply in_zrange in I. unfold signed. assert (W : within a 0 = false).
      { unfold within. rewrite Z.lnot_0, Z.land_m1_r. apply Z.eqb_neq. lia. }
      now rewrite W. }
  rewrite E0 in E. unfold f at 1, fused in E. rewrite fused_none in E.
  assert (T : terms_value x (factor_terms alpha labeling c) = total (map (fun s => if within s (mask_of x (nodes c)) then signed_sum (length (places c)) f s else 0) (zrange 1 (2 ^ Z.of_nat (length (places c)) - 1)))).
  { unfold terms_value, factor_terms. rewrite map_map. apply total_map_ext. intros s I. apply in_zrange in I. unfold term_value. cbn [fst snd]. rewrite (forallb_perm _ _ _ (sort_perm _)), chosen_taken by (rewrite L; unfold order in I; lia).
    destruct (within s (mask_of x (nodes c))); [| reflexivity ]. apply coefficients_spec. unfold order in *. lia. }
  rewrite T. unfold total in E |- *. lia.
Qed.

(* the list of subsets: which terms there are *)
Lemma chosen_incl ns : forall i s, incl (chosen_from i ns s) ns.
Proof. induction ns as [|n ns IH]; intros i s; cbn [chosen_from]; [ apply incl_refl |]. destruct (Z.testbit s i); [ apply incl_cons; [ now left |] |]; apply incl_tl, IH. Qed.
Lemma chosen_nonempty : forall ns s, 1 <= s < 2 ^ Z.of_nat (length ns) -> chosen_from 0 ns s <> [].
Proof.
  induction ns as [|n ns IH]; intros s H; cbn [length] in H; [ change (2 ^ Z.of_nat 0) with 1 in H; lia |].
  destruct (mask_bit (length ns) s) as (b & y & -> & Hy); [ lia |]. cbn [chosen_from]. rewrite bit_low. destruct b; [ discriminate |]. change (0 + 1) with (Z.succ 0). rewrite chosen_shift by lia. apply IH. cbn [bit] in H. lia.
Qed.
Lemma terms_shape alpha labeling c co vs : length (nodes c) = length (places c) -> In (co, vs) (factor_terms alpha labeling c) ->
  Sorted Z.le vs /\ vs <> [] /\ incl vs (nodes c).
Proof.
  intros L I. unfold factor_terms in I. apply in_map_iff in I. destruct I as (s & E & I). injection E as _ <-. apply in_zrange in I. split; [ apply sort_sorted |]. split.
  - intro E. assert (N : chosen_from 0 (nodes c) s <> []) by (apply chosen_nonempty; rewrite L; unfold order in I; lia). apply N. apply Permutation_nil. rewrite <- E. apply sort_perm.
  - intros v Iv. apply (chosen_incl (nodes c) 0 s). apply (Permutation_in v (sort_perm _)). exact Iv.
Qed.
Lemma terms_count alpha labeling c : Z.of_nat (length (factor_terms alpha labeling c)) = 2 ^ order c - 1.
Proof. unfold factor_terms, zrange. rewrite map_length, zseq_length. assert (0 < 2 ^ order c) by (apply Z.pow_pos_nonneg; unfold order; lia). lia. Qed.
