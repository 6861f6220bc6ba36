From Coq Require Import ZArith NArith List Lia Bool QArith Qround Lqa.
From Verif Require Import Model.Bits Model.Distances Model.Simd Model.YCbCr Model.Lbsp Spec.Bits Spec.Simd Spec.Distances Spec.Lbsp
  Proofs.Bits Proofs.Distances Proofs.Simd.
Import ListNotations.
Open Scope Z_scope.

(** * thresholding *)
Ltac ltbs := repeat match goal with |- context [ ?a <? ?b ] =>
  lazymatch a with context [ if _ then _ else _ ] => fail | _ => idtac end;
  lazymatch b with context [ if _ then _ else _ ] => fail | _ => idtac end; destruct (Z.ltb_spec a b) end.
Lemma byte_cases (P : Z -> bool) : forallb (fun n => P (Z.of_nat n)) (seq 0 256) = true -> forall b, byte b -> P b = true.
Proof.
  intros H b B. unfold byte in B. rewrite forallb_forall in H. specialize (H (Z.to_nat b)).
  rewrite Z2Nat.id in H by lia. apply H, in_seq. lia.
Qed.
Lemma lxor128 b : byte b -> Z.lxor b 128 = if b <? 128 then b + 128 else b - 128.
Proof.
  intro B. apply Z.eqb_eq. revert b B. apply (byte_cases (fun b => Z.lxor b 128 =? (if b <? 128 then b + 128 else b - 128))).
  vm_compute. reflexivity.
Qed.
Lemma land_byte b : byte b -> Z.land 255 b = b /\ Z.land 0 b = 0.
Proof.
  intro B. split; [| reflexivity ]. rewrite Z.land_comm. change 255 with (Z.ones 8). rewrite Z.land_ones by lia.
  apply Z.mod_small. exact B.
Qed.

(** one byte of the final comparison *)
Lemma lane_final dist thr : byte dist -> byte thr ->
  (if signed8 (Z.lxor thr 128 mod 256) <? signed8 (Z.lxor dist (128 mod 256)) then 255 else 0) = if thr <? dist then 255 else 0.
Proof.
  intros A B. change (128 mod 256) with 128. rewrite !lxor128 by assumption. unfold byte in *. unfold signed8.
  destruct (dist <? 128) eqn:E1, (thr <? 128) eqn:E2; rewrite ?Z.mod_small by lia;
  ltbs; lia.
Qed.

Definition lane41 (ref thr v : Z) : Z :=
  if signed8 (Z.lxor thr 128 mod 256) <? signed8 (Z.lxor ((Z.max v (ref mod 256) - Z.min v (ref mod 256)) mod 256) (128 mod 256)) then 255 else 0.
Definition lane2 (ref thr v : Z) : Z :=
  let d := Z.lxor v (128 mod 256) in
  let r := Z.lxor (ref mod 256) (128 mod 256) in
  let c := if signed8 r <? signed8 d then 255 else 0 in
  let dist := Z.lor (Z.land c ((d - r) mod 256)) (Z.land (255 - c) ((r - d) mod 256)) in
  if signed8 (Z.lxor thr 128 mod 256) <? signed8 (Z.lxor dist (128 mod 256)) then 255 else 0.
Lemma thr_sse41_lanes vals ref thr : length vals = 16%nat -> thr_sse41 vals ref thr = movemask_epi8 (map (lane41 ref thr) vals) mod 2^16.
Proof.
  intro L. do 16 (destruct vals as [|? vals]; [ discriminate |]). destruct vals; [| discriminate ]. reflexivity.
Qed.
Lemma thr_sse2_lanes vals ref thr : length vals = 16%nat -> thr_sse2 vals ref thr = movemask_epi8 (map (lane2 ref thr) vals) mod 2^16.
Proof.
  intro L. do 16 (destruct vals as [|? vals]; [ discriminate |]). destruct vals; [| discriminate ]. reflexivity.
Qed.
Lemma lane41_ok ref thr v : byte ref -> byte thr -> byte v -> lane41 ref thr v = if thr <? Z.abs (v - ref) then 255 else 0.
Proof.
  intros R T V. unfold lane41. unfold byte in *. rewrite (Z.mod_small ref) by lia. rewrite (Z.mod_small (Z.max v ref - _)) by lia.
  replace (Z.max v ref - Z.min v ref) with (Z.abs (v - ref)) by lia. apply lane_final; unfold byte; lia.
Qed.
Lemma lane2_ok ref thr v : byte ref -> byte thr -> byte v -> lane2 ref thr v = if thr <? Z.abs (v - ref) then 255 else 0.
Proof.
  intros R T V. unfold lane2. unfold byte in *. rewrite (Z.mod_small ref) by lia. change (128 mod 256) with 128.
  rewrite !(lxor128 ref), !(lxor128 v) by assumption.
  set (d := if v <? 128 then v + 128 else v - 128). set (r := if ref <? 128 then ref + 128 else ref - 128).
  assert (C : (signed8 r <? signed8 d) = (ref <? v)).
  { unfold signed8, d, r. destruct (v <? 128) eqn:E1, (ref <? 128) eqn:E2;
    ltbs; lia. }
  rewrite C.
  assert (M1 : (d - r) mod 256 = (v - ref) mod 256).
  { unfold d, r. destruct (v <? 128), (ref <? 128);
    [ f_equal; lia | replace (v + 128 - (ref - 128)) with (v - ref + 1 * 256) by lia; apply Z_mod_plus_full |
      replace (v - 128 - (ref + 128)) with (v - ref + (-1) * 256) by lia; apply Z_mod_plus_full | f_equal; lia ]. }
  assert (M2 : (r - d) mod 256 = (ref - v) mod 256).
  { unfold d, r. destruct (v <? 128), (ref <? 128);
    [ f_equal; lia | replace (ref - 128 - (v + 128)) with (ref - v + (-1) * 256) by lia; apply Z_mod_plus_full |
      replace (ref + 128 - (v - 128)) with (ref - v + 1 * 256) by lia; apply Z_mod_plus_full | f_equal; lia ]. }
  rewrite M1, M2. clear M1 M2 C. clearbody d r.
  assert (E : Z.lor (Z.land (if ref <? v then 255 else 0) ((v - ref) mod 256)) (Z.land (255 - (if ref <? v then 255 else 0)) ((ref - v) mod 256)) = Z.abs (v - ref)).
  { destruct (ref <? v) eqn:E.
    - change (255 - 255) with 0. rewrite (proj1 (land_byte (_ mod 256) (Z.mod_pos_bound _ 256 eq_refl))).
      rewrite Z.land_0_l, Z.lor_0_r, Z.mod_small by lia. lia.
    - change (255 - 0) with 255. rewrite Z.land_0_l, Z.lor_0_l. rewrite (proj1 (land_byte (_ mod 256) (Z.mod_pos_bound _ 256 eq_refl))).
      rewrite Z.mod_small by lia. lia. }
  rewrite E. apply lane_final; unfold byte; lia.
Qed.
Lemma movemask_bound l : Forall byte l -> 0 <= movemask_epi8 l < 2 ^ Z.of_nat (length l).
Proof.
  induction 1 as [|b l B H IH]; [ cbn; lia |]. unfold movemask_epi8 in *. cbn [fold_right length].
  rewrite Nat2Z.inj_succ, Z.pow_succ_r by lia. unfold byte in B.
  assert (0 <= b / 128 <= 1). { split; [ apply Z.div_pos; lia |]. assert (b / 128 < 2) by (apply Z.div_lt_upper_bound; lia). lia. } lia.
Qed.
Lemma movemask_bit l n : Forall byte l -> Z.testbit (movemask_epi8 l) (Z.of_nat n) = match nth_error l n with Some b => 128 <=? b | None => false end.
Proof.
  intro H. revert n. induction H as [|b l B H IH]; intro n.
  - unfold movemask_epi8. cbn [fold_right]. rewrite Z.testbit_0_l. destruct n; reflexivity.
  - unfold movemask_epi8 in *. cbn [fold_right]. unfold byte in B. set (acc := fold_right _ 0 l) in *.
    assert (E : b / 128 = if 128 <=? b then 1 else 0).
    { destruct (Z.leb_spec 128 b).
      - symmetry. apply Z.div_unique with (b - 128); lia.
      - apply Z.div_small. lia. }
    rewrite E. destruct n as [|n].
    + change (Z.of_nat 0) with 0. cbn [nth_error]. rewrite Z.add_comm. destruct (128 <=? b).
      * apply Z.testbit_odd_0.
      * rewrite Z.add_0_r. apply Z.testbit_even_0.
    + rewrite Nat2Z.inj_succ, Z.add_comm. cbn [nth_error]. destruct (128 <=? b).
      * rewrite Z.testbit_odd_succ by lia. apply IH.
      * rewrite Z.add_0_r, Z.testbit_even_succ by lia. apply IH.
Qed.
Lemma lanes_descriptor f vals ref thr : register vals -> (forall v, byte v -> f v = if thr <? Z.abs (v - ref) then 255 else 0) ->
  is_descriptor vals ref thr (movemask_epi8 (map f vals) mod 2^16).
Proof.
  intros [L B] F.
  assert (B' : Forall byte (map f vals)).
  { apply Forall_forall. intros x X. apply in_map_iff in X. destruct X as (v & <- & V). rewrite Forall_forall in B.
    rewrite F by auto. unfold byte. destruct (thr <? _); lia. }
  pose proof (movemask_bound _ B') as M. rewrite map_length, L in M. change (Z.of_nat 16) with 16 in M.
  rewrite Z.mod_small by lia. split; [ lia |]. intros n v V.
  rewrite (movemask_bit _ n B'), nth_error_map, V. cbn [option_map]. rewrite Forall_forall in B.
  rewrite F by (apply B, (nth_error_In _ _ V)). destruct (Z.ltb_spec thr (Z.abs (v - ref))); split; intro; try lia; try reflexivity; discriminate.
Qed.
Lemma thr_sse41_ok vals ref thr : register vals -> byte ref -> byte thr -> is_descriptor vals ref thr (thr_sse41 vals ref thr).
Proof. intros V R T. rewrite thr_sse41_lanes by apply V. apply lanes_descriptor; [ exact V |]. intros. now apply lane41_ok. Qed.
Lemma thr_sse2_ok vals ref thr : register vals -> byte ref -> byte thr -> is_descriptor vals ref thr (thr_sse2 vals ref thr).
Proof. intros V R T. rewrite thr_sse2_lanes by apply V. apply lanes_descriptor; [ exact V |]. intros. now apply lane2_ok. Qed.

Lemma descriptor_unique vals ref thr d d' : length vals = 16%nat -> is_descriptor vals ref thr d -> is_descriptor vals ref thr d' -> d = d'.
Proof.
  intros L [B1 H1] [B2 H2]. apply Z.bits_inj'. intros n N. destruct (Z_lt_ge_dec n 16) as [S|S].
  - destruct (nth_error vals (Z.to_nat n)) as [v|] eqn:E; [| apply nth_error_None in E; lia ].
    specialize (H1 _ _ E). specialize (H2 _ _ E). rewrite Z2Nat.id in H1, H2 by lia.
    destruct (Z.testbit d n), (Z.testbit d' n); try reflexivity; exfalso.
    + destruct H1 as [H1 _], H2 as [_ H2]. specialize (H2 (H1 eq_refl)). discriminate.
    + destruct H1 as [_ H1], H2 as [H2 _]. specialize (H1 (H2 eq_refl)). discriminate.
  - assert (Z : forall x, 0 <= x < 2^16 -> Z.testbit x n = false).
    { intros x X. destruct (Z.eq_dec x 0) as [->|]; [ apply Z.testbit_0_l |]. apply Z.bits_above_log2; [ lia |].
      assert (Z.log2 x < 16) by (apply Z.log2_lt_pow2; lia). lia. }
    rewrite !Z by lia. reflexivity.
Qed.

Lemma scalar_fold ref thr vals : byte ref -> Forall byte vals -> forall k d, (k + length vals <= 16)%nat -> 0 <= d < 2^16 ->
  (forall i, Z.of_nat k <= i -> Z.testbit d i = false) ->
  exists d', fold_left (fun nDesc '(n, v) => bind nDesc (fun d => bind (L1dist 8 v ref) (fun dist =>
    Some (Z.lor d (Z.shiftl (if thr <? dist then 1 else 0) (Z.of_nat n)) mod 2^16)))) (combine (seq k (length vals)) vals) (Some d) = Some d' /\
    0 <= d' < 2^16 /\ (forall i, (i < k)%nat -> Z.testbit d' (Z.of_nat i) = Z.testbit d (Z.of_nat i)) /\
    forall n v, nth_error vals n = Some v -> (Z.testbit d' (Z.of_nat (k + n)) = true <-> thr < Z.abs (v - ref)).
Proof.
  intros R H. induction H as [|v l B H IH]; intros k d K D Z0.
  - exists d. split; [ reflexivity |]. split; [ exact D |]. split; [ auto |]. intros n v X. destruct n; discriminate.
  - cbn [length seq combine fold_left]. cbn [length] in K.
    assert (E : L1dist 8 v ref = Some (Z.abs (v - ref))).
    { apply L1dist_exact; [ now left |]. left. unfold in_u. unfold byte in *. change (2 ^ 8) with 256. lia. }
    cbn [bind]. rewrite E. cbn [bind].
    set (x := if thr <? Z.abs (v - ref) then 1 else 0).
    set (d1 := Z.lor d (Z.shiftl x (Z.of_nat k)) mod 2^16).
    assert (Bits : forall i, 0 <= i < 16 -> Z.testbit d1 i = Z.testbit d i || ((i =? Z.of_nat k) && (thr <? Z.abs (v - ref)))).
    { intros i I. unfold d1. rewrite Z.mod_pow2_bits_low by lia. rewrite Z.lor_spec. f_equal.
      rewrite Z.shiftl_spec by lia. destruct (Z.eqb_spec i (Z.of_nat k)) as [->|N].
      - rewrite Z.sub_diag. unfold x. destruct (thr <? _); reflexivity.
      - cbn [andb]. unfold x. destruct (thr <? _).
        + destruct (Z_lt_ge_dec i (Z.of_nat k)); [ apply Z.testbit_neg_r; lia |].
          apply Z.bits_above_log2; [ lia | change (Z.log2 1) with 0; lia ].
        + apply Z.testbit_0_l. }
    assert (D1 : 0 <= d1 < 2^16) by (apply Z.mod_pos_bound; lia).
    destruct (IH (S k) d1) as (d' & F & D' & Lo & Hi); [ lia | exact D1 | |].
    { intros i I. destruct (Z_lt_ge_dec i 16) as [S|S].
      - rewrite Bits by lia. rewrite Z0 by lia. destruct (Z.eqb_spec i (Z.of_nat k)); [ lia | reflexivity ].
      - unfold d1. apply Z.mod_pow2_bits_high. lia. }
    exists d'. split; [ exact F |]. split; [ exact D' |]. split.
    + intros i I. rewrite Lo by lia. rewrite Bits by lia. destruct (Z.eqb_spec (Z.of_nat i) (Z.of_nat k)); [ lia |].
      cbn [andb]. apply orb_false_r.
    + intros n w W. destruct n as [|n]; cbn [nth_error] in W.
      * assert (w = v) by congruence. subst w. rewrite Nat.add_0_r, Lo by lia. rewrite Bits by lia.
        rewrite Z0 by lia. rewrite Z.eqb_refl. cbn [orb andb]. apply Z.ltb_lt.
      * replace (k + S n)%nat with (S k + n)%nat by lia. now apply Hi.
Qed.
Lemma thr_scalar_ok vals ref thr : register vals -> byte ref ->
  exists d, thr_scalar vals ref thr = Some d /\ is_descriptor vals ref thr d.
Proof.
  intros [L B] R. destruct (scalar_fold ref thr vals R B 0%nat 0) as (d & F & D & _ & Hi); [ lia | lia | intros; apply Z.testbit_0_l |].
  exists d. split; [ unfold thr_scalar; rewrite L in F; exact F |]. split; [ exact D |]. intros n v V. apply (Hi n v V).
Qed.
Lemma thr_paths_agree vals ref thr : register vals -> byte ref -> byte thr ->
  thr_scalar vals ref thr = Some (thr_sse41 vals ref thr) /\ thr_sse2 vals ref thr = thr_sse41 vals ref thr.
Proof.
  intros V R T. destruct (thr_scalar_ok vals ref thr V R) as (d & E & D).
  pose proof (thr_sse41_ok vals ref thr V R T) as A. pose proof (thr_sse2_ok vals ref thr V R T) as A'.
  split; [ rewrite E; f_equal |]; eapply descriptor_unique; eauto; apply V.
Qed.

(** * lookup *)
Lemma off_bounds n : (n < 16)%nat -> nth_error pattern n = Some (nth n off_x 0, nth n off_y 0) /\ -2 <= nth n off_x 0 <= 2 /\ -2 <= nth n off_y 0 <= 2.
Proof. intro H. do 16 (destruct n as [|n]; [ cbn; repeat split; lia |]). lia. Qed.
Lemma lookup_ok data rs cs rows cols y x c n : (n < 16)%nat -> 0 <= data -> 0 < cs -> cols * cs <= rs -> data + rows * rs <= 2^64 ->
  lookup_pre rows cols y x = true -> 0 <= c < cs ->
  lookup_addr data rs cs y x c n = data + (y + nth n off_y 0) * rs + (x + nth n off_x 0) * cs + c /\
  0 <= y + nth n off_y 0 < rows /\ 0 <= x + nth n off_x 0 < cols.
Proof.
  intros N D C R M P B. unfold lookup_addr, base_addr. unfold lookup_pre in P. change (5 / 2) with 2 in P.
  rewrite !andb_true_iff, !Z.leb_le, !Z.ltb_lt in P. destruct (off_bounds n N) as (_ & OX & OY).
  set (ox := nth n off_x 0) in *. set (oy := nth n off_y 0) in *. clearbody ox oy.
  split; [| lia ].
  rewrite <- (Zmod_small (data + (y + oy) * rs + (x + ox) * cs + c) (2^64)).
  - rewrite Zplus_mod_idemp_l, Zplus_mod_idemp_r. rewrite Zplus_mod. rewrite <- (Zplus_mod (rs * _)).
    rewrite (Zplus_mod (rs * _) (cs * _)), !Zmult_mod_idemp_r, <- (Zplus_mod (rs * _) (cs * _)), <- Zplus_mod. f_equal. lia.
  - assert (0 < rs) by nia. assert (0 <= (y + oy) * rs) by (apply Z.mul_nonneg_nonneg; lia).
    assert (0 <= (x + ox) * cs) by (apply Z.mul_nonneg_nonneg; lia). split; [ lia |].
    assert ((y + oy) * rs <= (rows - 1) * rs) by (apply Z.mul_le_mono_nonneg_r; lia).
    assert ((x + ox) * cs <= (cols - 1) * cs) by (apply Z.mul_le_mono_nonneg_r; lia). lia.
Qed.
Lemma pattern_distinct : NoDup pattern /\ ~ In (0, 0) pattern /\ length pattern = 16%nat.
Proof.
  split; [| split; [| reflexivity ]].
  - repeat (constructor; [ cbn; intro H; repeat (destruct H as [H|H]; [ discriminate H |]); exact H |]). constructor.
  - cbn. intro H. repeat (destruct H as [H|H]; [ discriminate H |]). exact H.
Qed.
Lemma lookup_injective data rs cs rows cols y x c n m : (n < 16)%nat -> (m < 16)%nat -> 0 <= data -> 0 < cs -> cols * cs <= rs -> data + rows * rs <= 2^64 ->
  lookup_pre rows cols y x = true -> 0 <= c < cs ->
  lookup_addr data rs cs y x c n = lookup_addr data rs cs y x c m -> n = m.
Proof.
  intros N Mm D C R M P B E.
  destruct (lookup_ok data rs cs rows cols y x c n) as (E1 & A1 & B1); auto.
  destruct (lookup_ok data rs cs rows cols y x c m) as (E2 & A2 & B2); auto.
  rewrite E1, E2 in E. destruct (off_bounds n N) as (O1 & _). destruct (off_bounds m Mm) as (O2 & _).
  set (xn := nth n off_x 0) in *. set (yn := nth n off_y 0) in *. set (xm := nth m off_x 0) in *. set (ym := nth m off_y 0) in *.
  clearbody xn yn xm ym.
  assert (Hy : yn = ym).
  { destruct (Z.lt_trichotomy yn ym) as [L|[L|L]]; [ exfalso | exact L | exfalso ].
    - assert ((y + yn + 1) * rs <= (y + ym) * rs) by (apply Z.mul_le_mono_nonneg_r; nia).
      assert ((x + xn) * cs < cols * cs) by (apply Z.mul_lt_mono_pos_r; lia). assert (0 <= (x + xm) * cs) by (apply Z.mul_nonneg_nonneg; lia). lia.
    - assert ((y + ym + 1) * rs <= (y + yn) * rs) by (apply Z.mul_le_mono_nonneg_r; nia).
      assert ((x + xm) * cs < cols * cs) by (apply Z.mul_lt_mono_pos_r; lia). assert (0 <= (x + xn) * cs) by (apply Z.mul_nonneg_nonneg; lia). lia. }
  subst ym. assert (Hx : xn = xm) by nia. subst xm.
  pose proof pattern_distinct as (ND & _ & L). rewrite NoDup_nth_error in ND. apply ND; [ rewrite L; exact N | now rewrite O1, O2 ].
Qed.

(** * gradient *)
Lemma weighted_16 w d : weighted w pattern 0 d =
  fold_right Z.add 0 (map (fun '(o, n) => if N.testbit d n then w o else 0) (combine pattern [0;1;2;3;4;5;6;7;8;9;10;11;12;13;14;15]%N)).
Proof. reflexivity. Qed.
Lemma ones16 x : Z.of_N (ones 16 x) = fold_right Z.add 0 (map (fun n => if N.testbit x n then 1 else 0) [0;1;2;3;4;5;6;7;8;9;10;11;12;13;14;15]%N).
Proof.
  cbn [ones fold_right map]. change (N.of_nat 0) with 0%N.
  repeat match goal with |- context [ N.of_nat ?k ] => let v := eval vm_compute in (N.of_nat k) in change (N.of_nat k) with v end.
  rewrite !N2Z.inj_add. change (Z.of_N 0) with 0.
  repeat match goal with |- context [ Z.of_N (if ?b then 1%N else 0%N) ] =>
    replace (Z.of_N (if b then 1%N else 0%N)) with (if b then 1 else 0) by (destruct b; reflexivity) end. lia.
Qed.
Lemma ones_land d m : Z.of_N (ones 16 (N.land d m)) =
  fold_right Z.add 0 (map (fun n => if N.testbit d n && N.testbit m n then 1 else 0) [0;1;2;3;4;5;6;7;8;9;10;11;12;13;14;15]%N).
Proof. rewrite ones16. f_equal. apply map_ext. intro n. now rewrite N.land_spec. Qed.
Lemma grad_side d pos neg w :
  (forall b : N -> bool, map (fun '(o, n) => if b n then w o else 0) (combine pattern [0;1;2;3;4;5;6;7;8;9;10;11;12;13;14;15]%N) =
     map (fun n => (if b n && N.testbit pos n then 1 else 0) - (if b n && N.testbit neg n then 1 else 0)) [0;1;2;3;4;5;6;7;8;9;10;11;12;13;14;15]%N) ->
  diff (popcount 2 (N.land d pos)) (popcount 2 (N.land d neg)) = Some (weighted w pattern 0 d).
Proof.
  intro H. rewrite !popcount_ones by lia. unfold diff. change (8 * 2)%nat with 16%nat. rewrite !ones_land, weighted_16, H.
  f_equal. cbn [map fold_right]. lia.
Qed.
Lemma grad_x d : diff (popcount 2 (N.land d GradX_Pos)) (popcount 2 (N.land d GradX_Neg)) = Some (weighted leftward pattern 0 d).
Proof.
  apply grad_side. intro b. cbn [combine pattern map].
  repeat match goal with |- context [ N.testbit ?m ?k ] => let v := eval vm_compute in (N.testbit m k) in change (N.testbit m k) with v end.
  repeat (f_equal; [ match goal with |- context [ b ?k ] => destruct (b k); reflexivity end |]).
  f_equal. match goal with |- context [ b ?k ] => destruct (b k); reflexivity end.
Qed.
Lemma grad_y d : diff (popcount 2 (N.land d GradY_Pos)) (popcount 2 (N.land d GradY_Neg)) = Some (weighted downward pattern 0 d).
Proof.
  apply grad_side. intro b. cbn [combine pattern map].
  repeat match goal with |- context [ N.testbit ?m ?k ] => let v := eval vm_compute in (N.testbit m k) in change (N.testbit m k) with v end.
  repeat (f_equal; [ match goal with |- context [ b ?k ] => destruct (b k); reflexivity end |]).
  f_equal. match goal with |- context [ b ?k ] => destruct (b k); reflexivity end.
Qed.
Lemma weighted_bounds w d : (w = leftward \/ w = downward) -> -6 <= weighted w pattern 0 d <= 6.
Proof.
  intros [-> | ->]; rewrite weighted_16; cbn [combine pattern map fold_right leftward downward fst snd Z.sgn Z.opp];
  repeat match goal with |- context [ if N.testbit ?a ?b then ?u else ?v ] =>
    let k := fresh in remember (if N.testbit a b then u else v) as k eqn:Hk; assert (Z.min u v <= k <= Z.max u v) by (subst k; destruct (N.testbit a b); lia); clear Hk end; lia.
Qed.

Lemma gradient_pick_ok ds last : exists d, gradient_pick ds last = Some (d, ones 16 d) /\ In d (last :: ds) /\
  forall e, In e (last :: ds) -> (ones 16 e <= ones 16 d)%N.
Proof.
  unfold gradient_pick. rewrite popcount_ones by lia. change (8 * 2)%nat with 16%nat.
  assert (G : forall ds b S, In b S -> (forall e, In e S -> (ones 16 e <= ones 16 b)%N) -> exists d,
    fold_left (fun acc d => match acc, popcount 2 d with
                          | Some (best, mag), Some m => if (mag <? m)%N then Some (d, m) else Some (best, mag)
                          | _, _ => None end) ds (Some (b, ones 16 b)) = Some (d, ones 16 d) /\ In d (S ++ ds) /\
    forall e, In e (S ++ ds) -> (ones 16 e <= ones 16 d)%N).
  { clear. intro ds. induction ds as [|a ds IH]; intros b S IB MB.
    - exists b. rewrite app_nil_r. auto.
    - cbn [fold_left]. rewrite popcount_ones by lia. change (8 * 2)%nat with 16%nat.
      destruct (N.ltb_spec (ones 16 b) (ones 16 a)) as [L|L].
      + destruct (IH a (S ++ [a])) as (d & F & I & M).
        * apply in_or_app. right. now left.
        * intros e E. apply in_app_or in E. destruct E as [E|[<-|[]]]; [ specialize (MB e E); lia | lia ].
        * rewrite <- app_assoc in I, M. cbn [app] in I, M. eauto.
      + destruct (IH b (S ++ [a])) as (d & F & I & M).
        * apply in_or_app. now left.
        * intros e E. apply in_app_or in E. destruct E as [E|[<-|[]]]; [ auto | lia ].
        * rewrite <- app_assoc in I, M. cbn [app] in I, M. eauto. }
  destruct (G ds last [last]) as (d & F & I & M); [ now left | intros e [<-|[]]; lia |].
  exists d. cbn [app] in I, M. auto.
Qed.
Lemma gradient_ok ds last : exists d, In d (last :: ds) /\ (forall e, In e (last :: ds) -> (ones 16 e <= ones 16 d)%N) /\
  gradient ds last = Some (weighted leftward pattern 0 d, weighted downward pattern 0 d, ones 16 d).
Proof.
  destruct (gradient_pick_ok ds last) as (d & P & I & M). exists d. split; [ exact I |]. split; [ exact M |].
  unfold gradient. rewrite P, grad_x, grad_y. reflexivity.
Qed.
Lemma gradient_bounds ds last gx gy mag : gradient ds last = Some (gx, gy, mag) -> -6 <= gx <= 6 /\ -6 <= gy <= 6 /\ (mag <= 16)%N.
Proof.
  destruct (gradient_ok ds last) as (d & _ & _ & E). rewrite E. intro H. injection H as <- <- <-.
  split; [ apply weighted_bounds; now left |]. split; [ apply weighted_bounds; now right |]. apply (ones_le 16 d).
Qed.
Lemma gradient_thr_default ref : byte ref -> gradient_thr 20 2 ref = (ref / 4 + 20) / 2 /\ 10 <= gradient_thr 20 2 ref <= 41.
Proof.
  unfold byte, gradient_thr. intro B. change (2 ^ 2) with 4. assert (0 <= ref / 4 <= 63).
  { split; [ apply Z.div_pos; lia |]. assert (ref / 4 < 64) by (apply Z.div_lt_upper_bound; lia). lia. }
  assert (10 <= (ref / 4 + 20) / 2 <= 41).
  { split; [ apply Z.div_le_lower_bound; lia |]. assert ((ref / 4 + 20) / 2 < 42) by (apply Z.div_lt_upper_bound; lia). lia. }
  rewrite Z.mod_small by lia. lia.
Qed.

(** * thresholds *)
Lemma abs_threshold_small n : 0 <= n < 2^31 -> abs_threshold n = Z.min 255 n.
Proof.
  intro H. unfold abs_threshold. rewrite signed32_range by lia. unfold sat_uchar.
  destruct (n <? 0) eqn:A, (255 <? n) eqn:B; lia.
Qed.
Lemma abs_threshold_range n : 0 <= abs_threshold n <= 255.
Proof. unfold abs_threshold, sat_uchar. destruct (signed32 n <? 0) eqn:A, (255 <? signed32 n) eqn:B; lia. Qed.
Lemma abs_threshold_big n : 2^31 <= n < 2^32 -> abs_threshold n = 0.
Proof.
  intro H. unfold abs_threshold, signed32. rewrite Z.mod_small by lia. destruct (n <? 2^31) eqn:A; [ lia |].
  unfold sat_uchar. destruct (n - 2^32 <? 0) eqn:B; [ reflexivity | lia ].
Qed.

Lemma half_even_nearest x : nearest x (half_even x).
Proof.
  unfold nearest, half_even. pose proof (Qfloor_le x) as A. pose proof (Qlt_floor x) as B. rewrite inject_Z_plus in B. change (inject_Z 1) with 1%Q in B.
  destruct (Qcompare_spec (x - inject_Z (Qfloor x)) (1 # 2)) as [E|E|E]; [ destruct (Z.even _) |..];
  rewrite ?inject_Z_plus; change (inject_Z 1) with 1%Q; lra.
Qed.
Lemma half_even_mono x y : (x <= y)%Q -> half_even x <= half_even y.
Proof.
  intro H. pose proof (Qfloor_resp_le x y H) as F.
  destruct (Z.eq_dec (Qfloor x) (Qfloor y)) as [E|E].
  - unfold half_even. rewrite E. destruct (Qcompare_spec (x - inject_Z (Qfloor y)) (1 # 2)) as [A|A|A],
      (Qcompare_spec (y - inject_Z (Qfloor y)) (1 # 2)) as [B|B|B]; try (destruct (Z.even _)); lia || (exfalso; lra).
  - assert (half_even x <= Qfloor x + 1).
    { unfold half_even. destruct (_ ?= _)%Q; [ destruct (Z.even _) |..]; lia. }
    assert (Qfloor y <= half_even y).
    { unfold half_even. destruct (_ ?= _)%Q; [ destruct (Z.even _) |..]; lia. }
    lia.
Qed.
Lemma half_even_int k : half_even (inject_Z k) = k.
Proof.
  unfold half_even. rewrite Qfloor_Z. destruct (Qcompare_spec (inject_Z k - inject_Z k) (1 # 2)) as [A|A|A]; [ exfalso; lra | reflexivity | exfalso; lra ].
Qed.
Global Instance half_even_comp : Proper (Qeq ==> eq) half_even.
Proof. intros x y E. apply Z.le_antisymm; apply half_even_mono; rewrite E; apply Qle_refl. Qed.
Lemma sat_range z : 0 <= sat_uchar z <= 255.
Proof. unfold sat_uchar. destruct (z <? 0) eqn:A, (255 <? z) eqn:B; lia. Qed.
Lemma sat_mono a b : a <= b -> sat_uchar a <= sat_uchar b.
Proof. intro. unfold sat_uchar. destruct (a <? 0) eqn:A, (255 <? a) eqn:B, (b <? 0) eqn:C, (255 <? b) eqn:D; lia. Qed.

Definition thr_value (fl : Q -> Q) ref f off := fl (fl (inject_Z ref * f) + fl (inject_Z off))%Q.
Lemma thr_value_mono fl r1 r2 f off : rounding fl -> (0 <= f)%Q -> r1 <= r2 -> (thr_value fl r1 f off <= thr_value fl r2 f off)%Q.
Proof.
  intros R F L. unfold thr_value. apply (fl_mono _ R). apply Qplus_le_compat; [| apply Qle_refl ]. apply (fl_mono _ R).
  apply Qmult_le_compat_r; [ rewrite <- Zle_Qle; exact L | exact F ].
Qed.
Lemma thr_value_ge0 fl r f off : rounding fl -> (0 <= f)%Q -> 0 <= r -> 0 <= off -> (0 <= thr_value fl r f off)%Q.
Proof.
  intros R F A B.
  assert (Z0 : (fl (inject_Z 0) == inject_Z 0)%Q) by (apply (fl_int _ R); lia). change (inject_Z 0) with 0%Q in Z0.
  assert (P : forall x, (0 <= x -> 0 <= fl x)%Q).
  { intros x X. rewrite <- Z0. now apply (fl_mono _ R). }
  apply P. apply Qle_trans with (0 + 0)%Q; [ apply Qle_refl |]. apply Qplus_le_compat; apply P.
  - apply Qmult_le_0_compat; [ change 0%Q with (inject_Z 0); rewrite <- Zle_Qle; exact A | exact F ].
  - change 0%Q with (inject_Z 0). rewrite <- Zle_Qle. exact B.
Qed.
(** when everything is below 2^30, no conversion overflows *)
Lemma thr_value_small fl r f off : rounding fl -> (0 <= f)%Q -> (inject_Z r * f <= inject_Z (2^30))%Q -> 0 <= off < 2^30 -> 0 <= r ->
  (thr_value fl r f off <= inject_Z (2 ^ 31))%Q.
Proof.
  intros R F A B C. unfold thr_value. assert (E : (fl (inject_Z (2 ^ 31)) == inject_Z (2 ^ 31))%Q) by (apply (fl_pow _ R); lia).
  assert (E' : (fl (inject_Z (2 ^ 30)) == inject_Z (2 ^ 30))%Q) by (apply (fl_pow _ R); lia).
  rewrite <- E. apply (fl_mono _ R). apply Qle_trans with (inject_Z (2 ^ 30) + inject_Z (2 ^ 30))%Q.
  - apply Qplus_le_compat; rewrite <- E'; apply (fl_mono _ R); [ exact A |]. rewrite <- Zle_Qle. lia.
  - rewrite <- inject_Z_plus, <- Zle_Qle. lia.
Qed.
Lemma rel_threshold_range fl r f off : 0 <= rel_threshold fl r f off <= 255.
Proof. apply sat_range. Qed.
Lemma cvRound_in x : (0 <= x)%Q -> half_even x < 2^31 -> cvRound x = half_even x.
Proof.
  intros A B. unfold cvRound. assert (0 <= half_even x).
  { rewrite <- (half_even_int 0). apply half_even_mono. exact A. }
  destruct (-2^31 <=? half_even x) eqn:E1; [| lia ]. destruct (half_even x <? 2^31) eqn:E2; [| lia ]. reflexivity.
Qed.
Lemma rel_threshold_mono fl r1 r2 f off : rounding fl -> (0 <= f)%Q -> 0 <= r1 <= r2 -> 0 <= off ->
  (thr_value fl r2 f off < inject_Z (2^31) - (1 # 2))%Q ->
  rel_threshold fl r1 f off <= rel_threshold fl r2 f off.
Proof.
  intros R F L O S. unfold rel_threshold. fold (thr_value fl r1 f off) (thr_value fl r2 f off).
  assert (B : half_even (thr_value fl r2 f off) < 2^31).
  { destruct (half_even_nearest (thr_value fl r2 f off)) as [N _]. apply Zlt_is_lt_bool. apply Zlt_is_lt_bool.
    rewrite Zlt_Qlt. lra. }
  pose proof (thr_value_mono fl r1 r2 f off R F (proj2 L)) as M. pose proof (half_even_mono _ _ M).
  rewrite !cvRound_in; try (apply thr_value_ge0; auto; lia); try lia. now apply sat_mono.
Qed.
Lemma rel_threshold_exact fl r f off : rounding fl -> (forall x, fl x == x)%Q -> (0 <= f)%Q -> 0 <= r -> 0 <= off ->
  (inject_Z r * f + inject_Z off < inject_Z (2^31) - (1 # 2))%Q ->
  exists z, nearest (inject_Z r * f + inject_Z off) z /\ rel_threshold fl r f off = Z.min 255 z.
Proof.
  intros R I F A B S. set (x := (inject_Z r * f + inject_Z off)%Q) in *. exists (half_even x). split; [ apply half_even_nearest |].
  unfold rel_threshold. fold (thr_value fl r f off).
  assert (E : (thr_value fl r f off == x)%Q) by (unfold thr_value, x; rewrite I; rewrite !I; reflexivity).
  pose proof (thr_value_ge0 fl r f off R F A B) as P.
  assert (Q : half_even (thr_value fl r f off) = half_even x) by now rewrite E.
  assert (half_even x < 2^31).
  { destruct (half_even_nearest x) as [N _]. apply Zlt_is_lt_bool, Zlt_is_lt_bool. rewrite Zlt_Qlt. lra. }
  rewrite cvRound_in; [| exact P | lia ]. rewrite Q. unfold sat_uchar.
  assert (0 <= half_even x). { rewrite <- Q, <- (half_even_int 0). now apply half_even_mono. }
  destruct (half_even x <? 0) eqn:U, (255 <? half_even x) eqn:V; lia.
Qed.
Lemma rel_threshold_big fl r f off : rounding fl -> (0 <= f)%Q -> 0 <= r -> 2^31 <= off -> rel_threshold fl r f off = 0.
Proof.
  intros R F A B. unfold rel_threshold. fold (thr_value fl r f off).
  assert (G : (inject_Z (2^31) <= thr_value fl r f off)%Q).
  { assert (E : (fl (inject_Z (2 ^ 31)) == inject_Z (2 ^ 31))%Q) by (apply (fl_pow _ R); lia).
    unfold thr_value. rewrite <- E. apply (fl_mono _ R).
    apply Qle_trans with (0 + inject_Z (2 ^ 31))%Q; [ rewrite Qplus_0_l; apply Qle_refl |]. apply Qplus_le_compat.
    - assert (Z0 : (fl (inject_Z 0) == inject_Z 0)%Q) by (apply (fl_int _ R); lia). change (inject_Z 0) with 0%Q in Z0.
      rewrite <- Z0. apply (fl_mono _ R). apply Qmult_le_0_compat; [ change 0%Q with (inject_Z 0); rewrite <- Zle_Qle; exact A | exact F ].
    - rewrite <- E. apply (fl_mono _ R). rewrite <- Zle_Qle. exact B. }
  assert (H : 2^31 <= half_even (thr_value fl r f off)) by (rewrite <- (half_even_int (2^31)); now apply half_even_mono).
  unfold cvRound. destruct (half_even _ <? 2^31) eqn:E; [ lia |]. rewrite andb_false_r. reflexivity.
Qed.
Lemma rounding_id : rounding (fun x => x).
Proof. split; intros; auto; reflexivity. Qed.

(** * coverage *)
Lemma written_iff rows cols y x : In (y, x) (written rows cols) <-> 2 <= y < rows - 2 /\ 2 <= x < cols - 2.
Proof.
  unfold written. rewrite in_prod_iff, !in_map_iff. split.
  - intros [(i & <- & I) (j & <- & J)]. apply in_seq in I. apply in_seq in J. lia.
  - intros [A B]. split; [ exists (Z.to_nat (y - 2)) | exists (Z.to_nat (x - 2)) ]; rewrite in_seq; lia.
Qed.

(** * difference images *)
Lemma img_diff_ok a b : exists h, differing 16 a b = h /\ img_diff a b = Some (255 * Z.of_N h / 16) /\ 0 <= 255 * Z.of_N h / 16 <= 255.
Proof.
  exists (differing 16 a b). split; [ reflexivity |]. unfold img_diff. rewrite hdist_differing by lia. change (8 * 2)%nat with 16%nat.
  pose proof (ones_le 16 (N.lxor a b)) as B. rewrite ones_lxor in B. set (h := differing 16 a b) in *. clearbody h.
  assert (R : 0 <= 255 * Z.of_N h / 16 <= 255).
  { split; [ apply Z.div_pos; lia |]. apply Z.div_le_upper_bound; lia. }
  split; [| exact R ]. unfold trunc_uchar, scale, inject_Z, Qmult, Qfloor. cbn [Qnum Qden].
  change (16 * 1)%positive with 16%positive. f_equal. apply Z.mod_small. lia.
Qed.
Lemma img_diff_merged_ok a0 a1 a2 b0 b1 b2 :
  img_diff_merged [a0; a1; a2] [b0; b1; b2] =
    Some (255 * Z.of_N (differing 16 a0 b0) / 48 + 255 * Z.of_N (differing 16 a1 b1) / 48 + 255 * Z.of_N (differing 16 a2 b2) / 48) /\
  255 * Z.of_N (differing 16 a0 b0) / 48 + 255 * Z.of_N (differing 16 a1 b1) / 48 + 255 * Z.of_N (differing 16 a2 b2) / 48 <= 255.
Proof.
  assert (B : forall a b, 0 <= Z.of_N (differing 16 a b) <= 16).
  { intros a b. pose proof (ones_le 16 (N.lxor a b)) as B. rewrite ones_lxor in B. lia. }
  assert (T : forall a b, trunc_uchar (scale * inject_Z (Z.of_N (differing 16 a b)) / 3) = 255 * Z.of_N (differing 16 a b) / 48 /\
                          0 <= 255 * Z.of_N (differing 16 a b) / 48 <= 85).
  { intros a b. specialize (B a b). set (h := Z.of_N (differing 16 a b)) in *. clearbody h.
    assert (R : 0 <= 255 * h / 48 <= 85) by (split; [ apply Z.div_pos; lia | apply Z.div_le_upper_bound; lia ]).
    split; [| exact R ]. unfold trunc_uchar, scale, inject_Z, Qdiv, Qmult, Qinv, Qfloor. cbn [Qnum Qden].
    change (16 * 1 * 3)%positive with 48%positive. rewrite Z.mul_1_r. apply Z.mod_small. lia. }
  unfold img_diff_merged. cbn [combine fold_left]. rewrite !hdist_differing by lia. change (8 * 2)%nat with 16%nat.
  destruct (T a0 b0) as [-> R0], (T a1 b1) as [-> R1], (T a2 b2) as [-> R2].
  split; [| lia ]. f_equal. rewrite Z.add_0_l, (Z.mod_small (255 * _ / 48)) by lia.
  rewrite (Z.mod_small (255 * Z.of_N (differing 16 a0 b0) / 48 + _)) by lia. apply Z.mod_small. lia.
Qed.
