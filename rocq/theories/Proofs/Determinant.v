(** The Laplace determinant satisfies the laws of [det_laws]. *)
From Coq Require Import Arith QArith Qcanon ZArith Bool Lia Field.
From Verif Require Import Spec.Linalg Proofs.Linalg.
Open Scope Qc_scope.

Ltac nb := repeat match goal with
  | |- context [Nat.ltb ?a ?b] => destruct (Nat.ltb_spec a b)
  | |- context [Nat.eqb ?a ?b] => destruct (Nat.eqb_spec a b)
  end; subst; try lia; try reflexivity.

Definition sg (i : nat) : Qc := if Nat.even i then 1 else - (1).
Lemma sg_S : forall i, sg (S i) = - sg i.
Proof. intros i. unfold sg. rewrite Nat.even_succ, <- Nat.negb_even. destruct (Nat.even i); simpl; [reflexivity|ring]. Qed.

Lemma laplace_S : forall k A, laplace (S k) A = qsum (S k) (fun i => sg i * A i 0%nat * laplace k (minor i A)).
Proof. reflexivity. Qed.

Lemma laplace_ext : forall n A B, (forall i j, (i < n)%nat -> (j < n)%nat -> A i j = B i j) -> laplace n A = laplace n B.
Proof.
  induction n as [|n IH]; intros A B H; [reflexivity|]. rewrite !laplace_S. apply qsum_ext. intros i Hi.
  rewrite (H i 0%nat) by lia. rewrite (IH (minor i A) (minor i B)); [reflexivity|].
  intros r c Hr Hc. unfold minor. apply H; [nb|lia].
Qed.

Definition setrow (r : nat) (v : nat -> Qc) (A : nat -> nat -> Qc) : nat -> nat -> Qc :=
  fun i j => if Nat.eqb i r then v j else A i j.

Lemma minor_setrow_same : forall r v A i j, minor r (setrow r v A) i j = minor r A i j.
Proof. intros. unfold minor, setrow. nb. Qed.
Lemma minor_setrow : forall r k v A i j, k <> r ->
  minor k (setrow r v A) i j = setrow (if Nat.ltb r k then r else (r - 1)%nat) (fun c => v (S c)) (minor k A) i j.
Proof. intros r k v A i j H. unfold minor, setrow. nb. Qed.

Lemma laplace_linear : forall n A r u v a, (r < n)%nat ->
  laplace n (setrow r (fun c => u c + a * v c) A) = laplace n (setrow r u A) + a * laplace n (setrow r v A).
Proof.
  induction n as [|n IH]; intros A r u v a Hr; [lia|]. rewrite !laplace_S, <- qsum_scal, <- qsum_add.
  apply qsum_ext. intros i Hi. destruct (Nat.eq_dec i r) as [->|Hne].
  - rewrite !(laplace_ext n (minor r (setrow r _ A)) (minor r A)) by (intros; apply minor_setrow_same).
    unfold setrow. rewrite Nat.eqb_refl. ring.
  - set (r' := if Nat.ltb r i then r else (r - 1)%nat).
    assert (Hr' : (r' < n)%nat) by (unfold r'; nb).
    assert (E : forall w, laplace n (minor i (setrow r w A)) = laplace n (setrow r' (fun c => w (S c)) (minor i A))).
    { intros w. apply laplace_ext. intros p q _ _. apply minor_setrow. exact Hne. }
    rewrite !E. rewrite (IH (minor i A) r' (fun c => u (S c)) (fun c => v (S c)) a Hr').
    unfold setrow. destruct (Nat.eqb_spec i r); [congruence|]. ring.
Qed.

Lemma laplace_adjacent_equal : forall n A r, (S r < n)%nat -> (forall c, (c < n)%nat -> A r c = A (S r) c) -> laplace n A = 0.
Proof.
  induction n as [|n IH]; intros A r Hr HA; [lia|]. rewrite laplace_S.
  transitivity (qsum (S n) (fun i => (if Nat.eqb i r then sg i * A r 0%nat * laplace n (minor r A) else 0)
                                   + (if Nat.eqb i (S r) then sg i * A r 0%nat * laplace n (minor r A) else 0))).
  - apply qsum_ext. intros i Hi. destruct (Nat.eqb_spec i r) as [->|H1]; [|destruct (Nat.eqb_spec i (S r)) as [->|H2]].
    + destruct (Nat.eqb_spec r (S r)); [lia|]. ring.
    + rewrite <- (HA 0%nat) by lia.
      rewrite (laplace_ext n (minor (S r) A) (minor r A)); [ring|].
      intros p q Hp Hq. unfold minor. nb; try (apply HA; lia).
      assert (p = r) by lia. subst p. apply HA. lia.
    + assert (E : laplace n (minor i A) = 0).
      { destruct (Nat.lt_ge_cases i r).
        - apply (IH _ (r - 1)%nat); [lia|]. intros c Hc. unfold minor. nb.
          replace (S (r - 1)) with r by lia. apply HA. lia.
        - apply (IH _ r); [lia|]. intros c Hc. unfold minor. nb. apply HA. lia. }
      rewrite E. ring.
  - rewrite qsum_add, !(qsum_single (S n)) by lia. rewrite sg_S. ring.
Qed.

Lemma laplace_swap_adjacent : forall n A r, (S r < n)%nat -> laplace n (swapm r (S r) A) = - laplace n A.
Proof.
  intros n A r Hr.
  set (s := fun c => A r c + 1 * A (S r) c).
  set (D2 := fun u v => laplace n (setrow r u (setrow (S r) v A))).
  assert (Lin1 : forall u v w, D2 (fun c => u c + 1 * v c) w = D2 u w + 1 * D2 v w) by (intros; apply laplace_linear; lia).
  assert (Lin2 : forall u v w, D2 w (fun c => u c + 1 * v c) = D2 w u + 1 * D2 w v).
  { intros u v w. unfold D2.
    assert (E : forall z, laplace n (setrow r w (setrow (S r) z A)) = laplace n (setrow (S r) z (setrow r w A)))
      by (intros; apply laplace_ext; intros; unfold setrow; nb).
    rewrite !E. apply laplace_linear. lia. }
  assert (Z : forall u, D2 u u = 0).
  { intros u. unfold D2. apply (laplace_adjacent_equal n _ r Hr). intros c _. unfold setrow. rewrite !Nat.eqb_refl.
    destruct (Nat.eqb_spec (S r) r); [lia|reflexivity]. }
  assert (E1 : D2 (A r) (A (S r)) = laplace n A) by (apply laplace_ext; intros; unfold setrow; nb).
  assert (E2 : D2 (A (S r)) (A r) = laplace n (swapm r (S r) A)) by (apply laplace_ext; intros; unfold setrow, swapm; nb).
  pose proof (Z s) as Hs. unfold s in Hs. rewrite Lin1, !Lin2, !Z, E1, E2 in Hs.
  transitivity (0 + 1 * laplace n A + 1 * (laplace n (swapm r (S r) A) + 1 * 0) - laplace n A); [ring|]. rewrite Hs. ring.
Qed.

Lemma laplace_swap : forall n A i k, (i < n)%nat -> (k < n)%nat -> i <> k -> laplace n (swapm i k A) = - laplace n A.
Proof.
  assert (H : forall d n A i, (i + S d < n)%nat -> laplace n (swapm i (i + S d) A) = - laplace n A).
  { induction d as [|d IH]; intros n A i Hi.
    - replace (i + 1)%nat with (S i) by lia. apply laplace_swap_adjacent. lia.
    - rewrite (laplace_ext n _ (swapm i (S i) (swapm (S i) (S i + S d) (swapm i (S i) A)))).
      + rewrite laplace_swap_adjacent, IH, laplace_swap_adjacent by lia. ring.
      + intros p q _ _. unfold swapm. nb; f_equal; lia. }
  intros n A i k Hi Hk Hne. destruct (Nat.lt_ge_cases i k).
  - replace k with (i + S (k - i - 1))%nat by lia. apply H. lia.
  - rewrite (laplace_ext n _ (swapm k i A)) by (intros; unfold swapm; nb).
    replace i with (k + S (i - k - 1))%nat by lia. apply H. lia.
Qed.

Lemma opp_self_zero : forall a : Qc, a = - a -> a = 0.
Proof.
  intros a H. assert (E : (1 + 1) * a = 0).
  { transitivity (a + a); [ring|]. rewrite <- (Qcplus_opp_r a). f_equal. exact H. }
  apply Qcmult_integral in E. destruct E; [discriminate|assumption].
Qed.

Lemma laplace_equal_rows : forall n A i k, (i < n)%nat -> (k < n)%nat -> i <> k -> (forall c, (c < n)%nat -> A i c = A k c) -> laplace n A = 0.
Proof.
  intros n A i k Hi Hk Hne HA. apply opp_self_zero. rewrite <- (laplace_swap n A i k Hi Hk Hne).
  apply laplace_ext. intros p q Hp Hq. unfold swapm. nb; [apply HA; exact Hq|symmetry; apply HA; exact Hq].
Qed.

Lemma laplace_add_row : forall n A i j a, (i < n)%nat -> (j < n)%nat -> i <> j ->
  laplace n (fun r c => if Nat.eqb r j then A r c + a * A i c else A r c) = laplace n A.
Proof.
  intros n A i j a Hi Hj Hne.
  rewrite (laplace_ext n _ (setrow j (fun c => A j c + a * A i c) A)) by (intros; unfold setrow; nb).
  rewrite laplace_linear by exact Hj.
  rewrite (laplace_ext n (setrow j (A j) A) A) by (intros; unfold setrow; nb).
  rewrite (laplace_equal_rows n (setrow j (A i) A) i j Hi Hj Hne) by (intros; unfold setrow; nb). ring.
Qed.

Lemma prod_shift : forall n (f : nat -> Qc),
  (fix prod k := match k with O => 1 | S l => prod l * f l end) (S n) =
  f 0%nat * (fix prod k := match k with O => 1 | S l => prod l * f (S l) end) n.
Proof.
  induction n as [|n IH]; intros f; [ring|].
  transitivity ((fix prod k := match k with O => 1 | S l => prod l * f l end) (S n) * f (S n)); [reflexivity|].
  rewrite IH. ring.
Qed.

Lemma laplace_triangular : forall n A, (forall i j, (j < i)%nat -> (i < n)%nat -> A i j = 0) ->
  laplace n A = (fix prod k := match k with O => 1 | S l => prod l * A l l end) n.
Proof.
  induction n as [|n IH]; intros A H; [reflexivity|]. rewrite laplace_S, (prod_shift n (fun l => A l l)).
  transitivity (qsum (S n) (fun i => if Nat.eqb i 0 then A 0%nat 0%nat * laplace n (minor 0 A) else 0)).
  - apply qsum_ext. intros i Hi. destruct (Nat.eqb_spec i 0) as [->|Hne]; [change (sg 0) with 1; ring|].
    rewrite (H i 0%nat) by lia. ring.
  - rewrite qsum_single by lia. f_equal. rewrite (IH (minor 0 A)); [reflexivity|].
    intros i j Hj Hi. unfold minor. simpl. apply H; lia.
Qed.

Lemma laplace_laws : forall n, det_laws n (laplace n).
Proof.
  intros n. split.
  - apply laplace_ext.
  - apply laplace_add_row.
  - apply laplace_swap.
  - apply laplace_triangular.
Qed.
