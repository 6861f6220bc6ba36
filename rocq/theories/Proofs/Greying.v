From Coq Require Import ZArith List Bool Lia.
From Verif Require Import Lib.Grid Model.Metrics Spec.Metrics Spec.MetricsTree Proofs.Metrics Model.Greying.
Import ListNotations.
Open Scope Z_scope.

Definition byte_mat (o : mat) : Prop := forall i j, 0 <= at_ o i j < 256.

Lemma grey_out v : 0 <= v < 256 -> grey v 0 = 127.
Proof.
  intros H. unfold grey. cbn [Z.eqb]. apply Z.bits_inj'. intros n N. rewrite Z.land_spec, Z.lor_spec. destruct (Z.testbit 127 n); [now rewrite orb_true_r|now rewrite andb_false_r].
Qed.

Lemma saved_size b roi o : mrows (saved b roi o) = mrows o /\ mcols (saved b roi o) = mcols o /\ (continuous o = true -> continuous (saved b roi o) = true).
Proof.
  unfold saved. destruct (b && is_binary o); [|auto]. destruct roi as [r|]; [|auto]. destruct ((mrows r =? mrows o) && (mcols r =? mcols o)); [|auto].
  repeat split. intros _. unfold continuous. cbn. rewrite Z.eqb_refl. reflexivity.
Qed.

Lemma row_col i j c : 0 <= j < c -> (i * c + j) / c = i /\ (i * c + j) mod c = j.
Proof.
  intros H. split.
  - rewrite Z.div_add_l by lia. rewrite Z.div_small by lia. lia.
  - rewrite Z.add_comm, Z.mod_add by lia. apply Z.mod_small. lia.
Qed.

Lemma saved_at b roi o i j : 0 <= i < mrows o -> 0 <= j < mcols o -> byte_mat o ->
  at_ (saved b roi o) i j =
  match roi with
  | Some r => if b && is_binary o && ((mrows r =? mrows o) && (mcols r =? mcols o)) && (at_ r i j =? 0) then 127 else at_ o i j
  | None => at_ o i j
  end.
Proof.
  intros I J B. unfold saved. destruct (b && is_binary o); [|destruct roi; reflexivity]. destruct roi as [r|]; [|reflexivity]. destruct ((mrows r =? mrows o) && (mcols r =? mcols o)); [|reflexivity].
  unfold at_ at 1. cbn [mdata mstep andb]. destruct (row_col i j (mcols o) J) as (-> & ->). unfold grey. destruct (Z.eqb_spec (at_ r i j) 0); [|reflexivity].
  apply (grey_out (at_ o i j) (B i j)).
Qed.

Lemma pixel_outside c v w g : count_pixel c v g (Some 0) = count_pixel c w g (Some 0).
Proof. unfold count_pixel, scored. change (0 =? NEG) with true. cbn [negb]. rewrite andb_false_r. reflexivity. Qed.

Lemma colour_outside v w g : colour v g (Some 0) = colour w g (Some 0).
Proof. unfold colour, scored. change (0 =? NEG) with true. cbn [negb]. rewrite andb_false_r. reflexivity. Qed.

Lemma score_same c b o g r : byte_mat o -> frame_ok o (Some g) (Some r) -> accumulate_mats c (saved b (Some r) o) (Some g) (Some r) = accumulate_mats c o (Some g) (Some r).
Proof.
  intros B F. pose proof F as (R & W & C & Hg & Hr). destruct (saved_size b (Some r) o) as (S1 & S2 & S3).
  assert (F' : frame_ok (saved b (Some r) o) (Some g) (Some r)).
  { unfold frame_ok, mat_ok in *. rewrite S1, S2. split; [exact R|]. split; [exact W|]. split; [auto|]. split; auto. }
  rewrite (mats_list c _ g (Some r) F'), (mats_list c o g (Some r) F). f_equal. unfold count_list, pixels. rewrite S1, S2, !fold_left_map. apply fold_left_ext.
  intros a [i j] I. apply in_grid in I. cbn [fst snd] in I. unfold pixel. cbn [fst snd]. rewrite saved_at by (auto; lia).
  destruct (b && is_binary o && ((mrows r =? mrows o) && (mcols r =? mcols o))); cbn [andb]; [|reflexivity].
  destruct (Z.eqb_spec (at_ r i j) 0) as [E|]; [|reflexivity]. rewrite E. apply pixel_outside.
Qed.

Lemma colour_same b o g r i j : byte_mat o -> 0 <= i < mrows o -> 0 <= j < mcols o -> colour (at_ (saved b (Some r) o) i j) g (Some (at_ r i j)) = colour (at_ o i j) g (Some (at_ r i j)).
Proof.
  intros B I J. rewrite saved_at by auto. destruct (b && is_binary o && ((mrows r =? mrows o) && (mcols r =? mcols o))); cbn [andb]; [|reflexivity].
  destruct (Z.eqb_spec (at_ r i j) 0) as [E|]; [|reflexivity]. rewrite E. apply colour_outside.
Qed.

Lemma count_split {A} (f g : A -> bool) l : (forall x, In x l -> f x = true -> g x = false) -> count f l + count g l <= Z.of_nat (length l) /\
  (count f l + count g l = Z.of_nat (length l) <-> forall x, In x l -> f x = true \/ g x = true).
Proof.
  induction l as [|a l IH]; intros H; [split; [unfold count; cbn; lia|split; [intros _ x []|unfold count; cbn; lia]]|].
  destruct IH as (L & E); [intros x I; apply H; right; exact I|]. rewrite !count_cons. cbn [length]. rewrite Nat2Z.inj_succ.
  pose proof (H a (or_introl eq_refl)) as Ha. destruct (f a) eqn:Fa.
  - rewrite (Ha eq_refl). split; [lia|]. split.
    + intros X x [ <- |I]; [auto|]. apply E; auto. lia.
    + intros X. enough (count f l + count g l = Z.of_nat (length l)) by lia. apply E. intros x I. apply X. right; exact I.
  - destruct (g a) eqn:Ga.
    + split; [lia|]. split.
      * intros X x [ <- |I]; [auto|]. apply E; auto. lia.
      * intros X. enough (count f l + count g l = Z.of_nat (length l)) by lia. apply E. intros x I. apply X. right; exact I.
    + split; [lia|]. split; [lia|]. intros X. destruct (X a (or_introl eq_refl)); congruence.
Qed.

Lemma binary_iff o : 0 <= mrows o -> 0 <= mcols o -> (is_binary o = true <-> forall i j, 0 <= i < mrows o -> 0 <= j < mcols o -> at_ o i j = 255 \/ at_ o i j = 0).
Proof.
  intros R W. unfold is_binary. rewrite Z.eqb_eq, <- (grid_length 0 (mrows o) 0 (mcols o) R W).
  destruct (count_split (fun p => at_ o (fst p) (snd p) =? 255) (fun p => at_ o (fst p) (snd p) =? 0) (grid 0 (mrows o) 0 (mcols o))) as (_ & E).
  { intros x _ X. apply Z.eqb_eq in X. rewrite X. reflexivity. }
  rewrite E. split.
  - intros H i j I J. specialize (H (i, j)). rewrite in_grid in H. cbn [fst snd] in H. rewrite !Z.eqb_eq in H. apply H. lia.
  - intros H [i j] I. apply in_grid in I. cbn [fst snd] in *. rewrite !Z.eqb_eq. apply H; lia.
Qed.

Lemma saved_twice b roi o i j : byte_mat o -> 0 <= i < mrows o -> 0 <= j < mcols o -> at_ (saved b roi (saved b roi o)) i j = at_ (saved b roi o) i j.
Proof.
  intros B I J. destruct (b && is_binary o) eqn:E.
  2:{ assert (saved b roi o = o) as -> by (unfold saved; rewrite E; reflexivity). unfold saved. rewrite E. reflexivity. }
  destruct roi as [r|]; [|unfold saved; rewrite E, E; reflexivity].
  destruct ((mrows r =? mrows o) && (mcols r =? mcols o)) eqn:K.
  2:{ assert (saved b (Some r) o = o) as -> by (unfold saved; rewrite E, K; reflexivity). unfold saved. rewrite E, K. reflexivity. }
  destruct (saved_size b (Some r) o) as (S1 & S2 & _).
  assert (B' : forall i j, 0 <= i < mrows o -> 0 <= j < mcols o -> at_ (saved b (Some r) o) i j = if at_ r i j =? 0 then 127 else at_ o i j).
  { intros i' j' I' J'. rewrite saved_at by auto. rewrite E, K. reflexivity. }
  set (s := saved b (Some r) o) in *. unfold saved. destruct (b && is_binary s) eqn:E2; [|reflexivity]. rewrite S1, S2, K.
  unfold at_ at 1. cbn [mdata mstep]. destruct (row_col i j (mcols o) J) as (-> & ->). unfold grey. rewrite B' by auto. destruct (at_ r i j =? 0); reflexivity.
Qed.
