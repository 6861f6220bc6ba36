From Coq Require Import ZArith List Bool Lia.
From Verif Require Import Lib.Grid Model.EdgeDetector Spec.EdgeDetector Proofs.Thinning.
Import ListNotations.
Open Scope Z_scope.

(** ** one pass *)
Definition child (l : nat) (p q : Z * Z) : Prop := match l with O => q = p | S _ => (fst q / 2, snd q / 2) = p end.
Lemma half_cases r y : y / 2 = r <-> y = 2 * r \/ y = 2 * r + 1.
Proof. split; intro E; [ pose proof (Z.div_mod y 2 ltac:(lia)); pose proof (Z.mod_pos_bound y 2 ltac:(lia)); lia | destruct E; subst; [ now rewrite Z.mul_comm, Z.div_mul by lia |] ].
  replace (2 * r + 1) with (1 + r * 2) by lia. now rewrite Z.div_add by lia. Qed.
Lemma gupd_same f r c v : gupd f r c v r c = v.
Proof. unfold gupd. now rewrite !Z.eqb_refl. Qed.
Lemma gupd_other f r c v y x : (y, x) <> (r, c) -> gupd f r c v y x = f y x.
Proof. intro N. unfold gupd. destruct (Z.eqb_spec y r), (Z.eqb_spec x c); cbn [andb]; auto. subst. congruence. Qed.
Lemma spread_child f r c v y x : (y / 2, x / 2) = (r, c) -> spread f r c v y x = v.
Proof.
  intro E. assert (y / 2 = r) as A by congruence. assert (x / 2 = c) as B by congruence. apply half_cases in A, B. unfold spread, gupd.
  destruct A as [-> | -> ], B as [-> | -> ]; rewrite ?Z.eqb_refl; cbn [andb];
    repeat (match goal with |- context [?a =? ?b] => destruct (Z.eqb_spec a b) end; cbn [andb]); auto; lia.
Qed.
Lemma spread_other f r c v y x : (y / 2, x / 2) <> (r, c) -> spread f r c v y x = f y x.
Proof.
  intro N. unfold spread. rewrite !gupd_other; auto; intro E; apply N; assert (A := f_equal fst E); assert (B := f_equal snd E); cbn [fst snd] in A, B; subst; f_equal; apply half_cases; auto.
Qed.
Section Pass.
Variables (g : nat -> Z -> Z -> grad) (l : nat).
Definition new (f : gmap) (p : Z * Z) : grad := combine_grad (g l (fst p) (snd p)) (f (fst p) (snd p)).
Lemma pixel_child f p q : child l p q -> acc_pixel g l f p (fst q) (snd q) = new f p.
Proof.
  unfold acc_pixel, child, new. destruct l as [|k]; intro C; [ subst q; apply gupd_same |]. apply spread_child. destruct p; cbn [fst snd] in *; auto.
Qed.
Lemma pixel_other f p q : ~ child l p q -> q <> p -> acc_pixel g l f p (fst q) (snd q) = f (fst q) (snd q).
Proof.
  unfold acc_pixel, child. intros C N. destruct p as [a b], q as [y x]. cbn [fst snd] in *. destruct l as [|k]; [| rewrite spread_other by auto ]; apply gupd_other; auto.
Qed.
Fixpoint ordered (ps : list (Z * Z)) : Prop :=
  match ps with [] => True | p :: b => ~ In p b /\ (forall q, child l p q -> ~ In q b) /\ ordered b end.
Lemma child_unique p p' q : child l p q -> child l p' q -> p = p'.
Proof. unfold child. destruct l; congruence. Qed.
Lemma pass_other : forall ps f q, ~ In q ps -> (forall p, In p ps -> ~ child l p q) -> fold_left (acc_pixel g l) ps f (fst q) (snd q) = f (fst q) (snd q).
Proof.
  induction ps as [|p b IH]; intros f q N C; auto. cbn [fold_left]. rewrite IH. - apply pixel_other; [ apply C; now left | intro E; apply N; now left ].
  - intro I. apply N. now right. - intros p' I. apply C. now right.
Qed.
Lemma pass_child : forall ps f, ordered ps -> forall p q, In p ps -> child l p q -> fold_left (acc_pixel g l) ps f (fst q) (snd q) = new f p.
Proof.
  induction ps as [|p0 b IH]; intros f O p q I C; [ destruct I |]. destruct O as (N & Nc & O). cbn [fold_left]. destruct I as [->|I].
  - rewrite pass_other; [ now apply pixel_child | now apply Nc |]. intros p' I' C'. apply N. now rewrite (child_unique _ _ _ C C').
  - rewrite (IH _ O p q I C). unfold new. f_equal. apply pixel_other; [ intro K; apply (Nc _ K I) | intro E; subst; auto ].
Qed.
End Pass.
Definition before (p q : Z * Z) : Prop := fst p < fst q \/ (fst p = fst q /\ snd p < snd q).
Lemma sorted_ordered l : forall ps, (forall l1 p l2, ps = l1 ++ p :: l2 -> forall q, In q l2 -> before q p) ->
  (forall p, In p ps -> 0 <= fst p /\ 0 <= snd p) -> ordered l ps.
Proof.
  induction ps as [|p b IH]; intros S P; [ exact I |]. pose proof (S [] p b eq_refl) as Hd. cbn [ordered]. split; [| split ].
  - intro K. specialize (Hd p K). unfold before in Hd. lia.
  - intros q C K. specialize (Hd q K). destruct (P q (or_intror K)) as [Q1 Q2]. unfold before in Hd. unfold child in C. destruct l as [|k]; [ subst; lia |].
    assert (A := f_equal fst C). assert (B := f_equal snd C). cbn [fst snd] in A, B. apply half_cases in A, B. lia.
  - apply IH; [ intros l1 p' l2 E; apply (S (p :: l1)); now rewrite E | intros p' I'; apply P; now right ].
Qed.
Lemma ordered_grid l h w : ordered l (rev (grid 0 h 0 w)).
Proof.
  apply sorted_ordered.
  - intros l1 p l2 E q I. apply (f_equal (@rev _)) in E. rewrite rev_involutive, rev_app_distr in E. cbn [rev] in E. rewrite <- app_assoc in E. cbn [app] in E.
    assert (Iq : In q (rev l2)) by (now apply -> in_rev). apply in_split in Iq. destruct Iq as (u & v & Eq). rewrite Eq, <- app_assoc in E. cbn [app] in E.
    unfold grid, zrange in E. apply (raster _ (zseq_sorted _ 0) _ (zseq_sorted _ 0) _ _ _ E p). apply in_app_iff. right. now left.
  - intros [y x] I. apply in_rev in I. apply in_grid in I. cbn [fst snd] in *. lia.
Qed.

(** ** all passes *)
Definition level_child (l : nat) (H W y x : Z) : Prop :=
  match l with O => 0 <= y < H /\ 0 <= x < W | S k => 0 <= y < level H k /\ 0 <= x < level W k end.
Lemma half_in n y : 0 <= y < n -> 0 <= y / 2 < half n.
Proof.
  intro I. unfold half. split; [ apply Z.div_pos; lia |]. pose proof (Z.div_mod y 2 ltac:(lia)). pose proof (Z.mod_pos_bound y 2 ltac:(lia)).
  pose proof (Z.div_mod (n + 1) 2 ltac:(lia)). pose proof (Z.mod_pos_bound (n + 1) 2 ltac:(lia)). lia.
Qed.
Lemma level_value g H W f l y x : level_child l H W y x ->
  acc_level g H W f l y x = match l with O => new g 0 f (y, x) | S _ => new g l f (y / 2, x / 2) end.
Proof.
  intro C. unfold acc_level. destruct l as [|k].
  - apply (pass_child g 0 _ f (ordered_grid 0 H W) (y, x) (y, x)); [| reflexivity ]. apply -> in_rev. apply in_grid. cbn [level_child level fst snd] in *. lia.
  - apply (pass_child g (S k) _ f (ordered_grid (S k) _ _) (y / 2, x / 2) (y, x)); [| reflexivity ]. apply -> in_rev. apply in_grid. cbn [level_child level] in *.
    destruct C as [A B]. apply half_in in A, B. cbn [fst snd]. lia.
Qed.
(** value after the passes of levels l+k-1 .. l, at a cell of level l-1 (or of the image when l = 0) *)
Fixpoint chain (g : nat -> Z -> Z -> grad) (l k : nat) (r c : Z) : grad :=
  match k with O => default_grad | S k => combine_grad (g l r c) (chain g (S l) k (r / 2) (c / 2)) end.
Definition up (l : nat) (y : Z) : Z := match l with O => y | S _ => y / 2 end.
Lemma passes_value g H W : forall k l y x, level_child l H W y x ->
  fold_left (acc_level g H W) (rev (seq l k)) (fun _ _ => default_grad) y x = match k with O => default_grad | S _ => chain g l k (up l y) (up l x) end.
Proof.
  induction k as [|k IH]; intros l y x C; [ reflexivity |]. cbn [seq rev]. rewrite fold_left_app. cbn [fold_left]. rewrite level_value by auto.
  assert (I : level_child (S l) H W (up l y) (up l x)). { cbn [level_child]. destruct l as [|j]; cbn [level_child level up] in *; auto. destruct C as [A B]. apply half_in in A, B. auto. }
  assert (E : new g l (fold_left (acc_level g H W) (rev (seq (S l) k)) (fun _ _ => default_grad)) (up l y, up l x) = chain g l (S k) (up l y) (up l x)).
  { unfold new. cbn [fst snd chain]. rewrite IH by auto. cbn [up]. destruct k; reflexivity. }
  destruct l; exact E.
Qed.
Lemma accumulate_value g H W L r c : (0 < L)%nat -> 0 <= r < H -> 0 <= c < W -> accumulate g H W L r c = chain g 0 L r c.
Proof. intros HL R C. unfold accumulate. rewrite passes_value by (cbn; auto). destruct L; [ lia | reflexivity ]. Qed.

(** ** what it means *)
Lemma default_is : default_grad = (0, -1, 127).
Proof. reflexivity. Qed.
Lemma pow_step y l : 0 <= y -> y / 2 / 2 ^ Z.of_nat l = y / 2 ^ Z.of_nat (S l).
Proof. intro P. rewrite Nat2Z.inj_succ, Z.pow_succ_r, Z.div_div by (try apply Z.pow_pos_nonneg; lia). reflexivity. Qed.
Definition mag3 (v : grad) : Z := snd v.
Definition gx3 (v : grad) : Z := fst (fst v).
Definition gy3 (v : grad) : Z := snd (fst v).
Lemma combine_parts a b : gx3 (combine_grad a b) = amin (gx3 a) (gx3 b) /\ gy3 (combine_grad a b) = amin (gy3 a) (gy3 b) /\ mag3 (combine_grad a b) = Z.min (mag3 a) (mag3 b).
Proof. destruct a as [[? ?] ?], b as [[? ?] ?]. auto. Qed.
Lemma chain_gx g : forall k l r c, gx3 (chain g l k r c) = 0.
Proof.
  induction k as [|k IH]; intros l r c; [ reflexivity |]. cbn [chain]. destruct (combine_parts (g l r c) (chain g (S l) k (r / 2) (c / 2))) as (-> & _ & _). rewrite IH.
  unfold amin. destruct (Z.ltb_spec (Z.abs 0) (Z.abs (gx3 (g l r c)))); lia.
Qed.
Lemma chain_gy g : forall k l r c, Z.abs (gy3 (chain g l k r c)) <= 1.
Proof.
  induction k as [|k IH]; intros l r c; [ cbn; lia |]. cbn [chain]. destruct (combine_parts (g l r c) (chain g (S l) k (r / 2) (c / 2))) as (_ & -> & _). specialize (IH (S l) (r / 2) (c / 2)).
  unfold amin. destruct (Z.ltb_spec (Z.abs (gy3 (chain g (S l) k (r / 2) (c / 2)))) (Z.abs (gy3 (g l r c)))); lia.
Qed.
Lemma chain_gy_zero g : forall k l r c, 0 <= r -> 0 <= c -> (gy3 (chain g l k r c) = 0 <-> exists j, (j < k)%nat /\ gy3 (g (l + j)%nat (r / 2 ^ Z.of_nat j) (c / 2 ^ Z.of_nat j)) = 0).
Proof.
  induction k as [|k IH]; intros l r c R C.
  - cbn. split; [ lia | intros (j & L & _); lia ].
  - cbn [chain]. destruct (combine_parts (g l r c) (chain g (S l) k (r / 2) (c / 2))) as (_ & -> & _).
    specialize (IH (S l) (r / 2) (c / 2) ltac:(apply Z.div_pos; lia) ltac:(apply Z.div_pos; lia)).
    assert (Sp : (exists j, (j < S k)%nat /\ gy3 (g (l + j)%nat (r / 2 ^ Z.of_nat j) (c / 2 ^ Z.of_nat j)) = 0) <->
                 gy3 (g l r c) = 0 \/ exists j, (j < k)%nat /\ gy3 (g (S l + j)%nat (r / 2 / 2 ^ Z.of_nat j) (c / 2 / 2 ^ Z.of_nat j)) = 0).
    { split.
      - intros (j & Lj & E). destruct j as [|j]. { left. rewrite Nat.add_0_r in E. change (2 ^ Z.of_nat 0) with 1 in E. now rewrite !Z.div_1_r in E. }
        right. exists j. split; [ lia |]. rewrite !pow_step by lia. now replace (S l + j)%nat with (l + S j)%nat by lia.
      - intros [E|(j & Lj & E)]. { exists 0%nat. split; [ lia |]. rewrite Nat.add_0_r. change (2 ^ Z.of_nat 0) with 1. now rewrite !Z.div_1_r. }
        exists (S j). split; [ lia |]. rewrite !pow_step in E by lia. now replace (l + S j)%nat with (S l + j)%nat by lia. }
    rewrite Sp, <- IH. unfold amin. destruct (Z.ltb_spec (Z.abs (gy3 (chain g (S l) k (r / 2) (c / 2)))) (Z.abs (gy3 (g l r c)))); lia.
Qed.
Lemma chain_mag g : (forall l r c, mag3 (g l r c) <= 127) -> forall k l r c, (0 < k)%nat -> 0 <= r -> 0 <= c ->
  minimum_over k (fun j => mag3 (g (l + j)%nat (r / 2 ^ Z.of_nat j) (c / 2 ^ Z.of_nat j))) (mag3 (chain g l k r c)).
Proof.
  intro B. induction k as [|k IH]; intros l r c K R C; [ lia |].
  cbn [chain]. destruct (combine_parts (g l r c) (chain g (S l) k (r / 2) (c / 2))) as (_ & _ & ->).
  assert (Z0 : g (l + 0)%nat (r / 2 ^ Z.of_nat 0) (c / 2 ^ Z.of_nat 0) = g l r c). { rewrite Nat.add_0_r. change (2 ^ Z.of_nat 0) with 1. now rewrite !Z.div_1_r. }
  assert (Zs : forall j, g (l + S j)%nat (r / 2 ^ Z.of_nat (S j)) (c / 2 ^ Z.of_nat (S j)) = g (S l + j)%nat (r / 2 / 2 ^ Z.of_nat j) (c / 2 / 2 ^ Z.of_nat j)).
  { intro j. rewrite !pow_step by lia. now replace (l + S j)%nat with (S l + j)%nat by lia. }
  destruct k as [|k].
  - cbn [chain]. change (mag3 default_grad) with 127. split.
    + exists 0%nat. split; [ lia |]. rewrite Z0. specialize (B l r c). lia.
    + intros j Lj. replace j with 0%nat by lia. rewrite Z0. lia.
  - destruct (IH (S l) (r / 2) (c / 2) ltac:(lia) ltac:(apply Z.div_pos; lia) ltac:(apply Z.div_pos; lia)) as [(j & Lj & E) Low].
    split.
    + destruct (Z_le_dec (mag3 (g l r c)) (mag3 (chain g (S l) (S k) (r / 2) (c / 2)))).
      * exists 0%nat. split; [ lia |]. rewrite Z0. lia.
      * exists (S j). split; [ lia |]. rewrite Zs, E. lia.
    + intros [|i] Li; [ rewrite Z0; lia |]. rewrite Zs. specialize (Low i ltac:(lia)). cbn beta in Low. lia.
Qed.

Theorem accumulated_parts g H W L r c : (0 < L)%nat -> 0 <= r < H -> 0 <= c < W -> (forall l y x, mag3 (g l y x) <= 127) ->
  let v := accumulate g H W L r c in
  minimum_over L (fun l => mag3 (g l (r / 2 ^ Z.of_nat l) (c / 2 ^ Z.of_nat l))) (mag3 v) /\ gx3 v = 0 /\ -1 <= gy3 v <= 1 /\
  (gy3 v = 0 <-> exists l, (l < L)%nat /\ gy3 (g l (r / 2 ^ Z.of_nat l) (c / 2 ^ Z.of_nat l)) = 0).
Proof.
  intros HL R C B v. unfold v. rewrite accumulate_value by auto. split; [ apply (chain_mag g B L 0%nat); lia |]. split; [ apply chain_gx |].
  split; [ pose proof (chain_gy g L 0%nat r c); lia |]. apply (chain_gy_zero g L 0%nat); lia.
Qed.
Lemma sector_of_default gy : -1 <= gy <= 1 -> sector_of 0 gy = if gy =? 0 then AnyDiag else Vertical.
Proof. intro B. assert (gy = -1 \/ gy = 0 \/ gy = 1) as [-> |[-> | -> ]] by lia; reflexivity. Qed.
Theorem accumulated_sector g H W L r c : (0 < L)%nat -> 0 <= r < H -> 0 <= c < W ->
  let v := accumulate g H W L r c in
  sector_of (gx3 v) (gy3 v) = if gy3 v =? 0 then AnyDiag else Vertical.
Proof.
  intros HL R C v. unfold v. rewrite accumulate_value by auto. rewrite chain_gx. apply sector_of_default. pose proof (chain_gy g L 0%nat r c). lia.
Qed.

(** the sector test against the angle, for all chars *)
Definition chars : list Z := map (fun k => Z.of_nat k - 128) (seq 0 256).
Definition flat_exact (gx gy : Z) : bool := (Z.abs gx + Z.abs gy) * (Z.abs gx + Z.abs gy) <? 2 * (gx * gx).
Definition is_flat (s : sector) : bool := match s with Flat => true | _ => false end.
Definition is_vertical (s : sector) : bool := match s with Vertical => true | _ => false end.
Lemma sectors_checked : forallb (fun gx => forallb (fun gy =>
   Bool.eqb (is_flat (sector_of gx gy)) (flat_exact gx gy) && Bool.eqb (is_vertical (sector_of gx gy)) (flat_exact gy gx)) chars) chars = true.
Proof. vm_compute. reflexivity. Qed.
Lemma in_chars v : -128 <= v <= 127 -> In v chars.
Proof. intro B. unfold chars. apply in_map_iff. exists (Z.to_nat (v + 128)). split; [ lia |]. apply in_seq. lia. Qed.
Lemma sectors_exact gx gy : -128 <= gx <= 127 -> -128 <= gy <= 127 ->
  is_flat (sector_of gx gy) = flat_exact gx gy /\ is_vertical (sector_of gx gy) = flat_exact gy gx.
Proof.
  intros A B. pose proof sectors_checked as K. rewrite forallb_forall in K. specialize (K gx (in_chars gx A)). cbn beta in K. rewrite forallb_forall in K.
  specialize (K gy (in_chars gy B)). apply andb_true_iff in K. destruct K as [K1 K2]. apply eqb_prop in K1, K2. auto.
Qed.
