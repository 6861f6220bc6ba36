From Coq Require Import ZArith List Bool Lia.
From Verif Require Import Lib.Grid Model.LogPolar Spec.LogPolar.
Import ListNotations.
Open Scope Z_scope.

Lemma entry_range nR nA ang rad : 0 <= ang < nA -> 0 <= rad < nR -> 0 <= entry nR ang rad < nR * nA.
Proof. intros. unfold entry. nia. Qed.
Lemma fold_first es : forall idx f l, exists f' l', fold_left step_first es (idx, f, l) = (idx + Z.of_nat (length es), f', l') /\ f' <= f /\ l <= l' /\
  (forall i e, nth_error es i = Some (Some e) -> f' <= idx + Z.of_nat i <= l') /\
  (f' = f \/ idx <= f') /\ (l' = l \/ l' < idx + Z.of_nat (length es)).
Proof.
  induction es as [|e es IH]; intros idx f l; cbn [fold_left length].
  - exists f, l. rewrite Z.add_0_r. repeat split; try lia. all: destruct i; discriminate.
  - destruct e as [v|]; cbn [step_first].
    + destruct (IH (idx + 1) (Z.min f idx) (Z.max l idx)) as (f' & l' & E & A & B & C & D & F).
      exists f', l'. rewrite E. split; [ f_equal; f_equal; lia |]. split; [ lia |]. split; [ lia |]. split.
      * intros [|i] e N; [ cbn; lia |]. cbn [nth_error] in N. specialize (C i e N). lia.
      * split; lia.
    + destruct (IH (idx + 1) f l) as (f' & l' & E & A & B & C & D & F).
      exists f', l'. rewrite E. split; [ f_equal; f_equal; lia |]. split; [ lia |]. split; [ lia |]. split.
      * intros [|i] e N; [ discriminate |]. cbn [nth_error] in N. specialize (C i e N). lia.
      * split; lia.
Qed.
Lemma mask_valid n nR nA (ent : Z * Z -> option Z) g : 0 < n -> Z.of_nat (length g) = n * n ->
  (forall p e, In p g -> ent p = Some e -> 0 <= e < nR * nA) ->
  valid_mask n nR nA (let '(f, l) := first_last n (map ent g) in Mask (map ent g) f l).
Proof.
  intros N L H. unfold first_last. destruct (fold_first (map ent g) 0 (n * n - 1) 0) as (f & l & E & A & B & C & D & F). rewrite E.
  rewrite map_length in F. assert (1 <= n * n) by nia.
  assert (Ff : 0 <= f) by lia. assert (Fl : l < n * n) by lia.
  exists (map ent g), f, l. split; [ reflexivity |]. split; [ rewrite map_length; lia |]. split.
  - intros i e X. split; [| specialize (C i e X); lia ]. rewrite nth_error_map in X. destruct (nth_error g i) as [p|] eqn:P; [| discriminate ].
    cbn in X. apply (H p e); [ eapply nth_error_In; eauto | congruence ].
  - lia.
Qed.
Lemma odd_guard n nR nA : 0 < n -> n mod 2 = 1 -> 0 < nR -> 0 < nA -> (0 <? n) && (n mod 2 =? 1) && ((0 <? nR) && (0 <? nA)) = true.
Proof. intros. rewrite !(proj2 (Z.ltb_lt 0 _)) by lia. rewrite (proj2 (Z.eqb_eq _ _)) by assumption. reflexivity. Qed.

Lemma chatfield_ok deg rad n nR nA : 0 < n -> n mod 2 = 1 -> n <> 3 -> 0 < nR -> 0 < nA -> (nA | 360) ->
  (forall y x, 0 <= deg y x <= 360) -> valid_mask n nR nA (chatfield deg rad n nR nA).
Proof.
  intros N O N3 R A [k K] D. unfold chatfield. rewrite odd_guard by assumption. cbn [negb].
  assert (KP : 0 < k) by nia. assert (BS : 360 / nA = k) by (rewrite K; apply Z.div_mul; lia).
  destruct (Z.eqb_spec (n / 2) 1) as [H1|H1]. { exfalso. pose proof (Z.div_mod n 2 ltac:(lia)). lia. }
  rewrite BS, (proj2 (Z.eqb_neq k 0)) by lia. cbn [andb].
  apply mask_valid; auto. { apply grid_length; lia. }
  intros [row col] e _ E. cbn [fst snd] in E. unfold chatfield_entry in E. destruct (_ && _) in E; [ discriminate |].
  destruct (Z.leb_spec 0 (rad row col)), (Z.ltb_spec (rad row col) nR); cbn [andb] in E; try discriminate.
  rewrite BS in E. assert (e = entry nR (((deg row col + k / 2) mod 360) / k) (rad row col)) by congruence. subst e.
  apply entry_range; [| lia ]. pose proof (Z.mod_pos_bound (deg row col + k / 2) 360 ltac:(lia)).
  split; [ apply Z.div_pos; lia |]. apply Z.div_lt_upper_bound; lia.
Qed.
(** a bin count that does not divide 360 leaves angles whose bin is out of range *)
Lemma chatfield_bad_angle nA : 0 < nA <= 360 -> ~ (nA | 360) ->
  exists a, 0 <= a < 360 /\ nA <= ((a + (360 / nA) / 2) mod 360) / (360 / nA).
Proof.
  intros A ND. set (bs := 360 / nA). pose proof (Z.div_mod 360 nA ltac:(lia)) as E. pose proof (Z.mod_pos_bound 360 nA ltac:(lia)) as B. fold bs in E.
  assert (BP : 0 < bs) by (unfold bs; apply Z.div_str_pos; lia).
  assert (R0 : 360 mod nA <> 0). { intro Z0. apply ND. exists bs. lia. }
  exists (359 - bs / 2). pose proof (Z.div_mod bs 2 ltac:(lia)). pose proof (Z.mod_pos_bound bs 2 ltac:(lia)).
  assert (bs <= 360) by nia. split; [ lia |]. replace (359 - bs / 2 + bs / 2) with 359 by lia. rewrite (Z.mod_small 359) by lia.
  apply Z.div_le_lower_bound; [ lia |]. nia.
Qed.
Lemma chatfield_overflow : exists nR nA, 0 < nR /\ 0 < nA <= 360 /\ forall deg rad, deg (-1) 1 = 315 -> 0 <= rad (-1) 1 < nR ->
  exists e, chatfield_entry deg rad nR nA (-1) 1 = Some e /\ nR * nA <= e.
Proof.
  exists 10, 100. split; [ lia |]. split; [ lia |]. intros deg rad D R. unfold chatfield_entry. cbn [Z.eqb andb].
  rewrite (proj2 (Z.leb_le 0 _)), (proj2 (Z.ltb_lt _ 10)) by lia. cbn [andb]. rewrite D.
  change (((315 + 360 / 100 / 2) mod 360) / (360 / 100)) with 105. eexists. split; [ reflexivity |]. unfold entry. lia.
Qed.
Lemma chatfield_div0 deg rad n nR nA : 0 < n -> n mod 2 = 1 -> n <> 3 -> 0 < nR -> 360 < nA ->
  (exists y x, - (n / 2) <= y <= n / 2 /\ - (n / 2) <= x <= n / 2 /\ (y <> 0 \/ x <> 0) /\ 0 <= rad y x < nR) -> chatfield deg rad n nR nA = MaskUB.
Proof.
  intros N O N3 R A (y & x & Hy & Hx & NZ & Hr). unfold chatfield. rewrite odd_guard by lia. cbn [negb].
  destruct (Z.eqb_spec (n / 2) 1) as [H1|H1]; [ reflexivity |]. rewrite (Z.div_small 360) by lia. cbn [Z.eqb andb].
  rewrite (proj2 (existsb_exists _ _)); [ reflexivity |]. exists (y, x). pose proof (Z.div_mod n 2 ltac:(lia)). split; [ apply in_grid; cbn [fst snd]; lia |].
  cbn [fst snd]. rewrite (proj2 (Z.leb_le 0 _)), (proj2 (Z.ltb_lt _ nR)) by lia. rewrite !andb_true_r.
  destruct (Z.eqb_spec y 0), (Z.eqb_spec x 0); cbn; auto. lia.
Qed.
Lemma lienhart_ok raw rad n nR nA : 0 < n -> n mod 2 = 1 -> 0 < nR -> 0 < nA -> (forall y x, 0 <= raw y x) -> valid_mask n nR nA (lienhart raw rad n nR nA).
Proof.
  intros N O R A D. unfold lienhart. rewrite odd_guard by assumption. cbn [negb].
  apply mask_valid; auto. { apply grid_length; lia. }
  intros [row col] e _ E. cbn [fst snd] in E. unfold lienhart_entry in E. destruct (_ && _) in E; [ discriminate |].
  destruct (Z.leb_spec 0 (rad row col)), (Z.ltb_spec (rad row col) nR); cbn [andb] in E; try discriminate.
  assert (e = entry nR (Z.rem (raw row col) nA) (rad row col)) by congruence. subst e.
  apply entry_range; [| lia ]. rewrite Z.rem_mod_nonneg by (auto; lia). apply Z.mod_pos_bound. lia.
Qed.
Lemma rad_search_nan le k i : rad_search le true k i = i + Z.of_nat k.
Proof. revert i. induction k as [|k IH]; intro i; cbn [rad_search negb andb]; [ lia |]. rewrite IH. lia. Qed.
(** a single radial bin leaves the whole mask empty *)
Lemma lienhart_one_bin raw le n nA es f l : lienhart raw (lienhart_rad le 1) n 1 nA = Mask es f l -> Forall (fun e => e = None) es.
Proof.
  unfold lienhart. destruct (negb _); [ discriminate |].
  set (es0 := map _ _). destruct (first_last n es0) as [f0 l0]. intro H. assert (es = es0) by congruence. subst es. unfold es0.
  apply Forall_forall. intros e I. apply in_map_iff in I. destruct I as ([row col] & <- & _). cbn [fst snd]. unfold lienhart_entry.
  destruct (_ && _); reflexivity.
Qed.
