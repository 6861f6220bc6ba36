From Coq Require Import List Arith QArith Qcanon ZArith Bool Lia Field.
From Verif Require Import Lib.Loop Model.Linalg Spec.Linalg.
Import ListNotations.
Open Scope Qc_scope.

(** ** sums *)
Lemma qsum_ext : forall n f g, (forall k, (k < n)%nat -> f k = g k) -> qsum n f = qsum n g.
Proof. induction n as [|n IH]; intros f g H; simpl; [reflexivity|]. rewrite (IH f g) by (intros; apply H; lia). rewrite H by lia. reflexivity. Qed.
Lemma qsum_add : forall n f g, qsum n (fun k => f k + g k) = qsum n f + qsum n g.
Proof. induction n as [|n IH]; intros f g; simpl; [ring|]. rewrite IH. ring. Qed.
Lemma qsum_scal : forall n a f, qsum n (fun k => a * f k) = a * qsum n f.
Proof. induction n as [|n IH]; intros a f; simpl; [ring|]. rewrite IH. ring. Qed.
Lemma qsum_scal_r : forall n a f, qsum n (fun k => f k * a) = qsum n f * a.
Proof. induction n as [|n IH]; intros a f; simpl; [ring|]. rewrite IH. ring. Qed.
Lemma qsum_zero : forall n f, (forall k, (k < n)%nat -> f k = 0) -> qsum n f = 0.
Proof. induction n as [|n IH]; intros f H; simpl; [reflexivity|]. rewrite IH by (intros; apply H; lia). rewrite H by lia. ring. Qed.
Lemma qsum_single : forall n i f, (i < n)%nat -> qsum n (fun k => if Nat.eqb k i then f k else 0) = f i.
Proof.
  induction n as [|n IH]; intros i f H; [lia|]. simpl. destruct (Nat.eqb n i) eqn:E.
  - apply Nat.eqb_eq in E. subst i. rewrite qsum_zero; [ring|]. intros k Hk.
    destruct (Nat.eqb_spec k n); [lia|reflexivity].
  - apply Nat.eqb_neq in E. rewrite IH by lia. ring.
Qed.
Lemma qsum_swap : forall n m f, qsum n (fun i => qsum m (fun j => f i j)) = qsum m (fun j => qsum n (fun i => f i j)).
Proof.
  induction n as [|n IH]; intros m f; simpl.
  - symmetry. apply qsum_zero. reflexivity.
  - rewrite IH, <- qsum_add. reflexivity.
Qed.

Lemma matmul_assoc : forall n A B C i j, matmul n (matmul n A B) C i j = matmul n A (matmul n B C) i j.
Proof.
  intros n A B C i j. unfold matmul.
  transitivity (qsum n (fun k => qsum n (fun l => A i l * B l k * C k j))).
  - apply qsum_ext. intros k _. rewrite <- qsum_scal_r. reflexivity.
  - rewrite qsum_swap. apply qsum_ext. intros l _. rewrite <- qsum_scal. apply qsum_ext. intros k _. ring.
Qed.
Lemma matmul_ext : forall n A A' B B' i j, (forall k, (k < n)%nat -> A i k = A' i k) -> (forall k, (k < n)%nat -> B k j = B' k j) ->
  matmul n A B i j = matmul n A' B' i j.
Proof. intros. unfold matmul. apply qsum_ext. intros k Hk. rewrite H, H0 by exact Hk. reflexivity. Qed.
Lemma matmul_id_l : forall n B i j, (i < n)%nat -> matmul n delta B i j = B i j.
Proof.
  intros n B i j H. unfold matmul. rewrite <- (qsum_single n i (fun k => B k j) H). apply qsum_ext.
  intros k _. unfold delta. rewrite Nat.eqb_sym. destruct (Nat.eqb k i); ring.
Qed.
Lemma matmul_id_r : forall n A i j, (j < n)%nat -> matmul n A delta i j = A i j.
Proof.
  intros n A i j H. unfold matmul. rewrite <- (qsum_single n j (fun k => A i k) H). apply qsum_ext.
  intros k _. unfold delta. destruct (Nat.eqb k j); ring.
Qed.

Lemma matmul_lin : forall n A X Y Z i j,
  qsum n (fun c => A i c * (X c j + (Y c j - Z c j))) = matmul n A X i j + (matmul n A Y i j - matmul n A Z i j).
Proof. intros n A X Y Z i j. unfold matmul. induction n as [|n IH]; simpl; [ring|]. rewrite IH. ring. Qed.
Lemma inv_nz : forall a : Qc, a <> 0 -> / a <> 0.
Proof.
  intros a H C. pose proof (Qcmult_inv_r a H) as E. rewrite C, Qcmult_0_r in E. discriminate.
Qed.
Lemma inv_opp_opp_inv : forall a : Qc, a <> 0 -> / - - / a = a.
Proof.
  intros a H. replace (- - / a) with (/ a) by ring. field. split; [exact H|discriminate].
Qed.

(** ** row operations *)
Definition sys (m n : nat) (M B X : nat -> nat -> Qc) : Prop :=
  forall r j, (r < m)%nat -> (j < n)%nat -> qsum m (fun c => M r c * X c j) = B r j.
Definition sgn (p : Z) : Qc := if (p =? 1)%Z then 1 else - (1).
Definition swapm (i k : nat) (M : nat -> nat -> Qc) : nat -> nat -> Qc :=
  fun r c => if Nat.eqb r i then M k c else if Nat.eqb r k then M i c else M r c.
Definition addm (i j : nat) (a : Qc) (M : nat -> nat -> Qc) : nat -> nat -> Qc :=
  fun r c => if Nat.eqb r j then M r c + a * M i c else M r c.

Lemma sys_ext : forall m n M M' B B' X, (forall r c, (r < m)%nat -> (c < m)%nat -> M r c = M' r c) ->
  (forall r c, (r < m)%nat -> (c < n)%nat -> B r c = B' r c) -> sys m n M B X -> sys m n M' B' X.
Proof.
  intros m n M M' B B' X HM HB H r j Hr Hj. rewrite <- HB by assumption. rewrite <- (H r j Hr Hj).
  apply qsum_ext. intros c Hc. rewrite HM by assumption. reflexivity.
Qed.
Lemma sys_swap : forall m n M B X i k, (i < m)%nat -> (k < m)%nat -> sys m n M B X -> sys m n (swapm i k M) (swapm i k B) X.
Proof.
  intros m n M B X i k Hi Hk H r j Hr Hj. unfold swapm.
  destruct (Nat.eqb r i); [apply H; assumption|]. destruct (Nat.eqb r k); apply H; assumption.
Qed.
Lemma swapm_invol : forall i k M r c, swapm i k (swapm i k M) r c = M r c.
Proof.
  intros i k M r c. unfold swapm. rewrite !Nat.eqb_refl. destruct (Nat.eqb_spec r i) as [->|E1].
  - destruct (Nat.eqb_spec k i) as [->|E]; reflexivity.
  - destruct (Nat.eqb_spec r k) as [->|E2]; reflexivity.
Qed.
Lemma sys_add : forall m n M B X i j a, (i < m)%nat -> sys m n M B X -> sys m n (addm i j a M) (addm i j a B) X.
Proof.
  intros m n M B X i j a Hi H r q Hr Hq. unfold addm. destruct (Nat.eqb r j); [|apply H; assumption].
  rewrite <- (H r q Hr Hq), <- (H i q Hi Hq), <- qsum_scal, <- qsum_add. apply qsum_ext. intros c _. ring.
Qed.
Lemma addm_inv : forall i j a M r c, i <> j -> addm i j (- a) (addm i j a M) r c = M r c.
Proof.
  intros i j a M r c Hij. unfold addm. destruct (Nat.eqb_spec r j) as [->|]; [|reflexivity].
  destruct (Nat.eqb_spec i j); [congruence|]. ring.
Qed.

Section Forward.
Variables (m n : nat) (A0 B0 : nat -> nat -> Qc).

Record eqv (M B : nat -> nat -> Qc) (p : Z) : Prop := {
  eq_sys : forall X, sys m n M B X <-> sys m n A0 B0 X;
  eq_det : forall D, det_laws m D -> sgn p * D M = D A0;
  eq_sgn : p = 1%Z \/ p = (-1)%Z }.

Lemma eqv_ext : forall M M' B B' p, (forall r c, (r < m)%nat -> (c < m)%nat -> M r c = M' r c) ->
  (forall r c, (r < m)%nat -> (c < n)%nat -> B r c = B' r c) -> eqv M B p -> eqv M' B' p.
Proof.
  intros M M' B B' p HM HB [H1 H2 H3]. split; [|intros D HD; rewrite <- (det_ext m D HD M M') by exact HM; apply H2; exact HD|exact H3].
  intros X. rewrite <- H1. split; apply sys_ext; auto; intros; symmetry; auto.
Qed.
Lemma eqv_swap : forall M B p i k, (i < m)%nat -> (k < m)%nat -> i <> k -> eqv M B p -> eqv (swapm i k M) (swapm i k B) (- p).
Proof.
  intros M B p i k Hi Hk Hne [H1 H2 H3]. split.
  - intros X. rewrite <- H1. split.
    + intros H. apply sys_swap with (i := i) (k := k) in H; try assumption.
      eapply sys_ext; [| |exact H]; intros; apply swapm_invol.
    + apply sys_swap; assumption.
  - intros D HD. unfold swapm. rewrite (det_swap m D HD M i k Hi Hk Hne). rewrite <- (H2 D HD).
    destruct H3 as [-> | ->]; unfold sgn; simpl; ring.
  - destruct H3 as [-> | ->]; auto.
Qed.
Lemma eqv_add : forall M B p i j a, (i < m)%nat -> (j < m)%nat -> i <> j -> eqv M B p -> eqv (addm i j a M) (addm i j a B) p.
Proof.
  intros M B p i j a Hi Hj Hne [H1 H2 H3]. split.
  - intros X. rewrite <- H1. split.
    + intros H. apply sys_add with (i := i) (j := j) (a := - a) in H; try assumption.
      eapply sys_ext; [| |exact H]; intros; apply addm_inv; assumption.
    + apply sys_add; assumption.
  - intros D HD. unfold addm. rewrite (det_add_row m D HD M i j a Hi Hj Hne). apply H2. exact HD.
  - exact H3.
Qed.

(** the matrix represented by the array during step i, with column i already cleared in rows i+1..j-1 *)
Definition Lg (i j : nat) (A : nat -> nat -> Qc) : nat -> nat -> Qc := fun r c =>
  if Nat.ltb r i then (if Nat.ltb c r then 0 else if Nat.eqb c r then / A r r else A r c)
  else if Nat.ltb c i then 0
  else if (Nat.eqb c i && Nat.ltb i r && Nat.ltb r j)%bool then 0 else A r c.

Lemma loop_pivot : forall o i (A : mat Qc), (i < m)%nat -> (i <= pivot o m i A < m)%nat.
Proof.
  intros o i A Hi. unfold pivot.
  apply (loop_inv (fun t k => (i <= k < m)%nat)); [lia|lia|].
  intros j k Hj Hk. destruct (abs_gt o (A j i) (A k i)); lia.
Qed.

Lemma axpy_val : forall eps i j lo hi alpha A r c, i <> j -> (lo <= hi)%nat ->
  axpy (Qc_arith eps) i j lo hi alpha A r c =
  if (Nat.eqb r j && Nat.leb lo c && Nat.ltb c hi)%bool then A r c + alpha * A i c else A r c.
Proof.
  intros eps i j lo hi alpha A r c Hne Hle. unfold axpy.
  apply (loop_inv (fun t M => forall r c, M r c =
    if (Nat.eqb r j && Nat.leb lo c && Nat.ltb c t)%bool then A r c + alpha * A i c else A r c)); [exact Hle| |].
  - intros r' c'. replace (Nat.eqb r' j && Nat.leb lo c' && Nat.ltb c' lo)%bool with false; [reflexivity|].
    symmetry. rewrite !andb_false_iff. rewrite Nat.leb_gt, Nat.ltb_ge. lia.
  - intros k M Hk HM r' c'. unfold upd. cbn [add mul Qc_arith]. rewrite !HM.
    rewrite Nat.eqb_refl. replace (Nat.ltb k k) with false by (symmetry; apply Nat.ltb_irrefl).
    replace (Nat.eqb i j) with false by (symmetry; apply Nat.eqb_neq; exact Hne).
    rewrite andb_false_r. cbn [andb].
    destruct (Nat.eqb_spec r' j) as [->|]; cbn [andb]; [|reflexivity].
    destruct (Nat.eqb_spec c' k) as [->|Hck].
    + replace (Nat.leb lo k) with true by (symmetry; apply Nat.leb_le; lia).
      replace (Nat.ltb k (S k)) with true by (symmetry; apply Nat.ltb_lt; lia). cbn [andb]. reflexivity.
    + replace (Nat.ltb c' (S k)) with (Nat.ltb c' k); [reflexivity|].
      destruct (Nat.ltb_spec c' k), (Nat.ltb_spec c' (S k)); try reflexivity; lia.
Qed.

Lemma swap_val : forall i k lo hi (A : mat Qc) r c, i <> k -> (lo <= hi)%nat ->
  swap_rows i k lo hi A r c = if (Nat.leb lo c && Nat.ltb c hi)%bool then swapm i k A r c else A r c.
Proof.
  intros i k lo hi A r c Hne Hle. unfold swap_rows.
  apply (loop_inv (fun t M => forall r c, M r c =
    if (Nat.leb lo c && Nat.ltb c t)%bool then swapm i k A r c else A r c)); [exact Hle| |].
  - intros r' c'. replace (Nat.leb lo c' && Nat.ltb c' lo)%bool with false; [reflexivity|].
    symmetry. rewrite !andb_false_iff. rewrite Nat.leb_gt, Nat.ltb_ge. lia.
  - intros t M Ht HM r' c'. unfold swap_elem, upd. rewrite !HM.
    replace (Nat.ltb t t) with false by (symmetry; apply Nat.ltb_irrefl). rewrite andb_false_r.
    destruct (Nat.eqb_spec c' t) as [->|Hck].
    + replace (Nat.leb lo t) with true by (symmetry; apply Nat.leb_le; lia).
      replace (Nat.ltb t (S t)) with true by (symmetry; apply Nat.ltb_lt; lia).
      replace (Nat.ltb t t) with false by (symmetry; apply Nat.ltb_irrefl). cbn [andb]. rewrite !andb_true_r.
      unfold swapm. destruct (Nat.eqb_spec r' k) as [->|].
      * destruct (Nat.eqb_spec k i); [congruence|reflexivity].
      * reflexivity.
    + rewrite !andb_false_r. replace (Nat.ltb c' (S t)) with (Nat.ltb c' t); [reflexivity|].
      destruct (Nat.ltb_spec c' t), (Nat.ltb_spec c' (S t)); try reflexivity; lia.
Qed.

Ltac nb := repeat match goal with
  | |- context [Nat.ltb ?a ?b] => destruct (Nat.ltb_spec a b)
  | |- context [Nat.leb ?a ?b] => destruct (Nat.leb_spec a b)
  | |- context [Nat.eqb ?a ?b] => destruct (Nat.eqb_spec a b)
  end; cbn [andb]; subst; try lia; try reflexivity.

Lemma Lg_swap : forall i k (A : mat Qc) r c, (i < m)%nat -> (i < k)%nat -> (r < m)%nat -> (c < m)%nat ->
  swapm i k (Lg i (S i) A) r c = Lg i (S i) (swap_rows i k i m A) r c.
Proof.
  intros i k A r c Hi Hk Hr Hc. unfold Lg. rewrite !swap_val by lia. unfold swapm. nb.
Qed.
Lemma swapB : forall i k (B : mat Qc) r c, (i < k)%nat -> (c < n)%nat -> swapm i k B r c = swap_rows i k 0 n B r c.
Proof. intros i k B r c Hk Hc. rewrite swap_val by lia. nb. Qed.

Lemma Lg_elim : forall eps i j A d r c, (i < j)%nat -> (j < m)%nat -> A i i <> 0 -> d = - / A i i -> (r < m)%nat -> (c < m)%nat ->
  addm i j (A j i * d) (Lg i j A) r c = Lg i (S j) (axpy (Qc_arith eps) i j (S i) m (A j i * d) A) r c.
Proof.
  intros eps i j A d r c Hij Hj Hz Hd Hr Hc. unfold Lg. rewrite !axpy_val by lia. unfold addm.
  nb; rewrite ?Hd; try ring; try (field; assumption).
Qed.
Lemma axpyB : forall eps i j a (B : mat Qc) r c, i <> j -> (c < n)%nat ->
  addm i j a B r c = axpy (Qc_arith eps) i j 0 n a B r c.
Proof. intros eps i j a B r c Hij Hc. rewrite axpy_val by lia. unfold addm. nb. Qed.

Lemma eliminate_inv : forall eps i d A B p, (i < m)%nat -> A i i <> 0 -> d = - / A i i ->
  eqv (Lg i (S i) A) B p -> (forall r, (r < i)%nat -> A r r <> 0) ->
  let AB := eliminate (Qc_arith eps) m n i d (A, B) in
  eqv (Lg i m (fst AB)) (snd AB) p /\ fst AB i i = A i i /\ (forall r, (r < i)%nat -> fst AB r r = A r r).
Proof.
  intros eps i d A B p Hi Hz Hd He Hr. unfold eliminate.
  apply (loop_inv (fun t AB => eqv (Lg i t (fst AB)) (snd AB) p /\ fst AB i i = A i i /\ (forall r, (r < i)%nat -> fst AB r r = A r r)));
    [lia|split; [exact He|split; reflexivity]|].
  intros j [A1 B1] Hj (E & Eii & Er). cbn [fst snd] in *. cbn [mul Qc_arith].
  split; [|split].
  - eapply eqv_ext; [| |apply (eqv_add (Lg i j A1) B1 p i j (A1 j i * d)); [exact Hi|lia|lia|exact E]].
    + intros r c Hrm Hcm. apply Lg_elim; try assumption; try lia; rewrite Eii; assumption.
    + intros r c Hrm Hcn. apply axpyB; [lia|exact Hcn].
  - rewrite axpy_val by lia. nb. exact Eii.
  - intros r Hri. rewrite axpy_val by lia. nb. apply Er. exact Hri.
Qed.

Definition lu_inv (i : nat) (st : lu_result Qc) : Prop :=
  match st with
  | LuDone p A B => eqv (Lg i (S i) A) B p /\ (forall r, (r < i)%nat -> A r r <> 0)
  | _ => True
  end.

Lemma lu_step_inv : forall eps i st, (i < m)%nat -> lu_inv i st -> lu_inv (S i) (lu_step (Qc_arith eps) m n i st).
Proof.
  intros eps i st Hi H. destruct st as [| |p A B]; try exact I. destruct H as [E Hd].
  unfold lu_step. pose proof (loop_pivot (Qc_arith eps) i A Hi) as Hk. set (k := pivot (Qc_arith eps) m i A) in *. clearbody k.
  destruct (small (Qc_arith eps) (A k i)); [exact I|].
  assert (Hs : exists A1 B1 p1, (if Nat.eqb k i then (A, B, p) else (swap_rows i k i m A, swap_rows i k 0 n B, (- p)%Z)) = (A1, B1, p1)
     /\ eqv (Lg i (S i) A1) B1 p1 /\ (forall r, (r < i)%nat -> A1 r r <> 0)).
  { destruct (Nat.eqb_spec k i) as [->|Hne].
    - exists A, B, p. auto.
    - do 3 eexists. split; [reflexivity|]. split.
      + eapply eqv_ext; [| |apply (eqv_swap (Lg i (S i) A) B p i k); [exact Hi|lia|lia|exact E]].
        * intros r c Hr Hc. apply Lg_swap; lia.
        * intros r c Hr Hc. apply swapB; lia.
      + intros r Hr. rewrite swap_val by lia. unfold swapm. nb. apply Hd. exact Hr. }
  destruct Hs as (A1 & B1 & p1 & -> & E1 & Hd1). cbn [neg_inv opp Qc_arith].
  destruct (Qc_eq_dec (A1 i i) 0) as [|Hz]; [exact I|].
  pose proof (eliminate_inv eps i (- / A1 i i) A1 B1 p1 Hi Hz eq_refl E1 Hd1) as He. cbv zeta in He.
  destruct (eliminate (Qc_arith eps) m n i (- / A1 i i) (A1, B1)) as [A2 B2] eqn:EE. 
  change (eliminate (Qc_arith eps) m n i (- / A1 i i) (A1, B1) = (A2, B2)) in EE. unfold mat in *. rewrite EE in He. cbn [fst snd] in He.
  destruct He as (E2 & Eii & Er). cbn [lu_inv]. split.
  - eapply eqv_ext; [| |exact E2]; [|reflexivity].
    intros r c Hr Hc. unfold Lg, upd. nb. rewrite inv_opp_opp_inv by exact Hz. exact Eii.
  - intros r Hr. unfold upd. nb.
    + replace (- - / A1 i i) with (/ A1 i i) by ring. apply inv_nz. exact Hz.
    + rewrite Er by lia. apply Hd1. lia.
Qed.

Lemma lu_forward_inv : forall eps, lu_inv m (lu_forward (Qc_arith eps) m n A0 B0).
Proof.
  intros eps. unfold lu_forward. apply (loop_inv (fun i st => lu_inv i st)); [lia| |].
  - cbn. split; [|intros; lia]. split; [| |left; reflexivity].
    + intros X. split; apply sys_ext; intros; unfold Lg; nb.
    + intros D HD. unfold sgn. simpl. rewrite (det_ext m D HD _ A0); [ring|]. intros r c Hr Hc. unfold Lg. nb.
  - intros i st Hi. apply lu_step_inv. lia.
Qed.
End Forward.

(** ** back substitution *)
Section Back.
Variables (m n : nat).

Definition upper (A : nat -> nat -> Qc) : nat -> nat -> Qc :=
  fun r c => if Nat.ltb c r then 0 else if Nat.eqb c r then / A r r else A r c.

Ltac nb := repeat match goal with
  | |- context [Nat.ltb ?a ?b] => destruct (Nat.ltb_spec a b)
  | |- context [Nat.leb ?a ?b] => destruct (Nat.leb_spec a b)
  | |- context [Nat.eqb ?a ?b] => destruct (Nat.eqb_spec a b)
  end; cbn [andb]; subst; try lia; try reflexivity.

Definition tail_sum (i : nat) (A B : nat -> nat -> Qc) (j : nat) : Qc :=
  qsum m (fun c => if Nat.leb c i then 0 else A i c * B c j).

Lemma inner_sum : forall eps i A B j init, (i < m)%nat ->
  loop (S i) m (fun k s => sub (Qc_arith eps) s (mul (Qc_arith eps) (A i k) (B k j))) init = init - tail_sum i A B j.
Proof.
  intros eps i A B j init Hi. unfold tail_sum.
  apply (loop_inv (fun t s => s = init - qsum t (fun c => if Nat.leb c i then 0 else A i c * B c j))); [lia| |].
  - rewrite qsum_zero; [ring|]. intros k Hk. nb.
  - intros k s Hk ->. cbn [sub mul Qc_arith]. cbn [qsum]. destruct (Nat.leb_spec k i); [lia|]. ring.
Qed.

Lemma back_row_val : forall eps i A B r c, (i < m)%nat ->
  back_row (Qc_arith eps) m n i A B r c =
  if (Nat.eqb r i && Nat.ltb c n)%bool then (B i c - tail_sum i A B c) * A i i else B r c.
Proof.
  intros eps i A B r c Hi. unfold back_row.
  apply (loop_inv (fun t M => forall r c, M r c =
    if (Nat.eqb r i && Nat.ltb c t)%bool then (B i c - tail_sum i A B c) * A i i else B r c)); [lia| |].
  - intros r' c'. replace (Nat.ltb c' 0) with false by reflexivity. rewrite andb_false_r. reflexivity.
  - intros j M Hj HM r' c'. unfold upd. rewrite inner_sum by exact Hi.
    assert (Ht : tail_sum i A M j = tail_sum i A B j).
    { unfold tail_sum. apply qsum_ext. intros k Hk. destruct (Nat.leb_spec k i); [reflexivity|]. rewrite HM. nb. }
    rewrite Ht, !HM. cbn [mul Qc_arith]. nb.
Qed.

Lemma upper_split : forall A X i j, (i < m)%nat ->
  qsum m (fun c => upper A i c * X c j) = / A i i * X i j + tail_sum i A X j.
Proof.
  intros A X i j Hi. unfold tail_sum.
  rewrite <- (qsum_single m i (fun c => / A i i * X c j) Hi), <- qsum_add. apply qsum_ext. intros c Hc. unfold upper. nb; ring.
Qed.

Lemma back_solves : forall eps A B, (forall r, (r < m)%nat -> A r r <> 0) -> sys m n (upper A) B (lu_back (Qc_arith eps) m n A B).
Proof.
  intros eps A B Hd. unfold lu_back.
  assert (H : (forall r j, (m - m <= r < m)%nat -> (j < n)%nat ->
      qsum m (fun c => upper A r c * loop 0 m (fun t B => back_row (Qc_arith eps) m n (m - 1 - t) A B) B c j) = B r j)
    /\ (forall r j, (r < m - m)%nat -> loop 0 m (fun t B => back_row (Qc_arith eps) m n (m - 1 - t) A B) B r j = B r j)).
  { apply (loop_inv (fun t X => (forall r j, (m - t <= r < m)%nat -> (j < n)%nat -> qsum m (fun c => upper A r c * X c j) = B r j)
      /\ (forall r j, (r < m - t)%nat -> X r j = B r j))); [lia|split; [intros; lia|reflexivity]|].
    intros t X Ht [H1 H2]. set (i := (m - 1 - t)%nat). assert (Hi : (i < m)%nat) by lia. split.
    - intros r j Hr Hj. destruct (Nat.eq_dec r i) as [->|Hne].
      + rewrite upper_split by exact Hi. rewrite back_row_val by exact Hi. rewrite Nat.eqb_refl.
        replace (Nat.ltb j n) with true by (symmetry; apply Nat.ltb_lt; exact Hj). cbn [andb].
        assert (Ht' : tail_sum i A (back_row (Qc_arith eps) m n i A X) j = tail_sum i A X j).
        { unfold tail_sum. apply qsum_ext. intros k Hk. destruct (Nat.leb_spec k i); [reflexivity|].
          rewrite back_row_val by exact Hi. nb. }
        rewrite Ht', (H2 i j) by lia. field. apply Hd. exact Hi.
      + rewrite <- (H1 r j) by lia. apply qsum_ext. intros c Hc. rewrite back_row_val by exact Hi.
        destruct (Nat.eqb_spec c i) as [->|]; [|reflexivity]. unfold upper. 
        destruct (Nat.ltb_spec i r); [ring|lia].
    - intros r j Hr. rewrite back_row_val by exact Hi. rewrite <- (H2 r j) by lia. nb. }
  intros r j Hr Hj. apply (proj1 H); [lia|exact Hj].
Qed.

Lemma upper_unique : forall A B X Y, (forall r, (r < m)%nat -> A r r <> 0) -> sys m n (upper A) B X -> sys m n (upper A) B Y ->
  forall r j, (r < m)%nat -> (j < n)%nat -> X r j = Y r j.
Proof.
  intros A B X Y Hd HX HY.
  assert (H : forall t, (t <= m)%nat -> forall r j, (m - t <= r < m)%nat -> (j < n)%nat -> X r j = Y r j).
  { induction t as [|t IH]; intros Ht r j Hr Hj; [lia|].
    destruct (Nat.eq_dec r (m - S t)) as [E|Hne]; [|apply IH; lia].
    pose proof (HX r j ltac:(lia) Hj) as Ex. pose proof (HY r j ltac:(lia) Hj) as Ey.
    rewrite upper_split in Ex by lia. rewrite upper_split in Ey by lia.
    assert (Et : tail_sum r A X j = tail_sum r A Y j).
    { unfold tail_sum. apply qsum_ext. intros k Hk. destruct (Nat.leb_spec k r); [reflexivity|]. rewrite (IH ltac:(lia) k j) by lia. reflexivity. }
    rewrite <- Ey, Et in Ex. pose proof (Hd r ltac:(lia)) as Hz.
    assert (E2 : / A r r * X r j = / A r r * Y r j).
    { rewrite <- (Qcplus_0_r (/ A r r * X r j)), <- (Qcplus_opp_r (tail_sum r A Y j)), Qcplus_assoc, Ex. ring. }
    apply (f_equal (fun z => A r r * z)) in E2. rewrite !Qcmult_assoc, Qcmult_inv_r, !Qcmult_1_l in E2 by exact Hz. exact E2. }
  intros r j Hr Hj. apply (H m); lia.
Qed.
End Back.

(** ** the main facts *)
Lemma Lg_upper : forall m A r c, (r < m)%nat -> (c < m)%nat -> Lg m (S m) A r c = upper A r c.
Proof. intros m A r c Hr Hc. unfold Lg, upper. destruct (Nat.ltb_spec r m); [reflexivity|lia]. Qed.

Lemma LU_facts : forall eps m n A B p A' X, LU (Qc_arith eps) m n A B = LuDone p A' X ->
  (forall r, (r < m)%nat -> A' r r <> 0) /\
  sys m n A B X /\ (forall Y, sys m n A B Y -> forall r j, (r < m)%nat -> (j < n)%nat -> Y r j = X r j) /\
  (forall D, det_laws m D -> sgn p * D (upper A') = D A).
Proof.
  intros eps m n A B p A' X H. unfold LU in H.
  pose proof (lu_forward_inv m n A B eps) as Hf.
  destruct (lu_forward (Qc_arith eps) m n A B) as [| |p1 A1 B1]; try discriminate.
  injection H as <- <- <-. destruct Hf as [E Hd].
  apply (eqv_ext m n A B _ (upper A1) _ B1) in E; [|apply Lg_upper|reflexivity].
  destruct E as [E1 E2 E3]. split; [exact Hd|]. split; [apply E1, back_solves; exact Hd|]. split.
  - intros Y HY. apply E1 in HY. apply (upper_unique m n A1 B1 Y _ Hd HY). apply back_solves. exact Hd.
  - exact E2.
Qed.

Lemma invert_gen_correct : forall eps n A p A' X, invert_gen (Qc_arith eps) n A = LuDone p A' X -> two_sided_inverse n A X.
Proof.
  intros eps n A p A' X H. destruct (LU_facts _ _ _ _ _ _ _ _ H) as (_ & Hs & Hu & _).
  assert (HAX : forall i j, (i < n)%nat -> (j < n)%nat -> matmul n A X i j = delta i j).
  { intros i j Hi Hj. apply (Hs i j Hi Hj). }
  set (Y := fun i j => X i j + (matmul n X A i j - delta i j)).
  assert (HY : sys n n A (identity (Qc_arith eps)) Y).
  { intros i j Hi Hj. unfold Y.
    transitivity (matmul n A X i j + (matmul n A (matmul n X A) i j - matmul n A delta i j)).
    - apply matmul_lin.
    - rewrite matmul_id_r by exact Hj. rewrite <- matmul_assoc.
      rewrite (matmul_ext n (matmul n A X) delta A A i j) by (intros; try reflexivity; apply HAX; assumption).
      rewrite matmul_id_l by exact Hi. rewrite HAX by assumption. unfold delta, identity. cbn. ring. }
  intros i j Hi Hj. split; [apply HAX; assumption|].
  pose proof (Hu Y HY i j Hi Hj) as E. unfold Y in E.
  assert (E2 : matmul n X A i j - delta i j = 0).
  { transitivity ((X i j + (matmul n X A i j - delta i j)) - X i j); [ring|]. rewrite E. ring. }
  rewrite <- (Qcplus_0_l (delta i j)), <- E2. ring.
Qed.

Lemma diag_prod : forall n A a, loop 0 n (fun i acc => acc * A i i) a =
  a * (fix prod k := match k with O => 1 | S l => prod l * A l l end) n.
Proof.
  intros n A a. apply (loop_inv (fun t acc => acc = a * (fix prod k := match k with O => 1 | S l => prod l * A l l end) t)); [lia| |].
  - ring.
  - intros i t _ ->. ring.
Qed.

Lemma prod_inv : forall n (A : nat -> nat -> Qc), (forall r, (r < n)%nat -> A r r <> 0) ->
  (fix prod k := match k with O => 1 | S l => prod l * A l l end) n <> 0 /\
  (fix prod k := match k with O => 1 | S l => prod l * upper A l l end) n =
  / (fix prod k := match k with O => 1 | S l => prod l * A l l end) n.
Proof.
  induction n as [|n IH]; intros A H.
  - split; [discriminate|]. reflexivity.
  - destruct (IH A ltac:(intros; apply H; lia)) as [H1 H2]. pose proof (H n ltac:(lia)) as Hn. split.
    + intros C. apply Qcmult_integral in C. tauto.
    + rewrite H2. unfold upper at 1. rewrite Nat.ltb_irrefl, Nat.eqb_refl. field. auto.
Qed.

Lemma det_recip_correct : forall eps n A q D, det_laws n D -> det_recip (Qc_arith eps) n A = Some q -> q <> 0 /\ D A = / q.
Proof.
  intros eps n A q D HD H. unfold det_recip in H.
  destruct (LU (Qc_arith eps) n 0 A A) as [| |p A' X] eqn:E; try discriminate. injection H as H.
  destruct (LU_facts _ _ _ _ _ _ _ _ E) as (Hd & _ & _ & Hdet).
  cbn [mul one opp Qc_arith] in H. rewrite diag_prod in H. fold (sgn p) in H.
  destruct (prod_inv n A' Hd) as [H1 H2]. set (P := (fix prod k := match k with O => 1 | S l => prod l * A' l l end) n) in *.
  assert (Hs : sgn p <> 0) by (unfold sgn; destruct (p =? 1)%Z; discriminate).
  assert (Hs2 : sgn p * sgn p = 1) by (unfold sgn; destruct (p =? 1)%Z; reflexivity).
  split; [subst q; intros C; apply Qcmult_integral in C; tauto|].
  rewrite <- (Hdet D HD), (det_triangular n D HD (upper A')), H2.
  - subst q. assert (Hi : / sgn p = sgn p) by (rewrite <- (Qcmult_1_l (/ sgn p)), <- Hs2; field; exact Hs).
    rewrite <- Hi at 1. field. auto.
  - intros i j Hij _. unfold upper. destruct (Nat.ltb_spec j i); [reflexivity|lia].
Qed.
