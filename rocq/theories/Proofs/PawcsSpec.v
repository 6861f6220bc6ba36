From Coq Require Import ZArith NArith QArith Qround Qminmax List Bool Lia Lqa Sorting.Permutation.
From Verif Require Import Lib.Grid Model.Bits Model.Distances Model.Sampling Model.Simd Model.Lbsp Model.RoiTable Model.Pbas Spec.Bits Spec.Simd Spec.Lbsp Proofs.Bits Proofs.Lbsp
  Proofs.Sampling Spec.RoiTable Proofs.RoiTable Spec.Distances Proofs.Distances Spec.Vibe.
From Verif Require Spec.Subsense Proofs.Subsense Spec.SubsenseFrame Proofs.SubsensePixel Proofs.SubsenseRun Proofs.LobsterRun.
From Verif Require Import Proofs.Vibe Proofs.Lobster.
From Verif Require Import Spec.Vibe Model.Lobster Spec.Lobster Model.WordDict Proofs.WordDict Model.Pawcs.
From Verif Require Model.SubsenseFrame.
From Verif Require Import Proofs.Pawcs Proofs.PawcsFrame Proofs.PawcsRun Spec.Pawcs.
Import ListNotations.
Open Scope Z_scope.

(* ------------------------------------------------------------------ dictionaries *)
Lemma kept {A} (m : store A) cnt : sound m -> len m = cnt -> 0 <= cnt -> (forall t, 0 <= t < cnt -> val m t <> None) -> well_kept m cnt.
Proof.
  intros H L Hc F. pose proof (full_next m H ltac:(lia) ltac:(rewrite L; exact F)) as Hn. pose proof H as [S1 S2 S3 S4 S5].
  assert (P : forall t, 0 <= t < cnt -> exists a, slot m t = Some (block m, a) /\ 0 <= a < cnt).
  { intros t Ht. specialize (F t Ht). unfold val in F. destruct (slot m t) as [[x a]|] eqn:E; [| easy ]. destruct (S3 t (x, a) ltac:(lia) E) as [E1 E2]. cbn [fst snd] in *. subst x. exists a. split; [ reflexivity | lia ]. }
  split; [ lia | exact P | intros t u p Ht Hu; apply S4; lia |].
  set (g := fun t => match slot m t with Some p => snd p | None => 0 end).
  assert (G : forall t, 0 <= t < cnt -> slot m t = Some (block m, g t) /\ 0 <= g t < cnt). { intros t Ht. destruct (P t Ht) as (a & E & Ha). unfold g. rewrite E. cbn [snd]. auto. }
  assert (ND : NoDup (map g (zrange 0 cnt))).
  { assert (K : forall l, NoDup l -> (forall t, In t l -> 0 <= t < cnt) -> NoDup (map g l)).
    { induction l as [|t l IH]; intros N I; cbn [map]; [ constructor |]. inversion N as [|? ? N1 N2]; subst. constructor; [| apply IH; [ exact N2 | intros u Hu; apply I; now right ] ].
      intros C. apply in_map_iff in C. destruct C as (u & E & Hu). assert (It := I t (or_introl eq_refl)). assert (Iu := I u (or_intror Hu)). destruct (G t It) as [E1 _]. destruct (G u Iu) as [E2 _].
      assert (t = u) by (apply (S4 t u (block m, g t)); try lia; [ exact E1 | rewrite E2, E; reflexivity ]). subst u. contradiction. }
    apply K; [ apply nodup_zseq |]. intros t Ht. apply in_zrange in Ht. lia. }
  intros a Ha. assert (I : incl (zrange 0 cnt) (map g (zrange 0 cnt))).
  { apply NoDup_length_incl; [ exact ND | now rewrite map_length |]. intros x Hx. apply in_map_iff in Hx. destruct Hx as (t & <- & Ht). apply in_zrange in Ht. apply in_zrange. destruct (G t ltac:(lia)). lia. }
  assert (Ia : In a (zrange 0 cnt)) by (apply in_zrange; lia). apply I in Ia. apply in_map_iff in Ia. destruct Ia as (t & <- & Ht). apply in_zrange in Ht. exists t. split; [ lia |]. apply G. lia.
Qed.
Lemma valid_of c now w : good_word c now w -> valid_word (ch c) now w.
Proof. intros (A & B & C & D & E). split; auto. Qed.

(* ------------------------------------------------------------------ distances *)
Lemma residual_unique v w X Y : residual_ceil v w X -> residual_ceil v w Y -> X = Y.
Proof. unfold residual_ceil. set (b := Z.max (norm2 w) 1). set (q := norm2 v * b - dot v w * dot v w). assert (1 <= b) by (unfold b; lia). intros [A B] [C D]. nia. Qed.
Lemma root_unique X r s : 0 <= r -> 0 <= s -> r * r <= X < (r + 1) * (r + 1) -> s * s <= X < (s + 1) * (s + 1) -> r = s.
Proof. intros. nia. Qed.
Lemma chroma_unique v w r s : chroma v w r -> chroma v w s -> r = s.
Proof.
  intros [A1 A2] [B1 B2]. destruct (list_eq_dec Z.eq_dec v w) as [E|N]; [ rewrite A1, B1 by auto; reflexivity |].
  destruct (grey_dec v) as [G1|G1]; [ destruct (grey_dec w) as [G2|G2]; [ rewrite A1, B1 by auto; reflexivity |] |];
    (destruct (A2 N ltac:(tauto)) as (X & E1 & E2 & E3); destruct (B2 N ltac:(tauto)) as (Y & E4 & E5 & E6); pose proof (residual_unique _ _ _ _ E1 E4); subst Y; exact (root_unique X r s E2 E5 E3 E6)).
Qed.
Lemma chroma_ok v w : bytes 3 v -> bytes 3 w -> exists r, cdist 8 v w = Some r /\ chroma v w r /\ 0 <= r < 2 ^ 10.
Proof.
  intros Hv Hw. destruct (angle_gap_ok v w Hv Hw) as (r & Er & Hr). unfold angle_gap in Er. destruct (cdist 8 v w) as [d|] eqn:E; [| discriminate ]. cbn [access] in Er. injection Er as ->. exists r. split; [ reflexivity |]. split; [| exact Hr ].
  destruct Hv as [L1 B1]. destruct Hw as [L2 B2]. split.
  - intros H. rewrite cdist_shortcut in E by (auto; lia). congruence.
  - intros N G. destruct (cdist_value v w) as (X & r' & HX & _ & E' & H0 & H1); try lia; auto using bytes_u. exists X. assert (r' = r) by congruence. subst r'. auto.
Qed.
Lemma apart_iff k v w d : k = 1 \/ k = 3 -> bytes k v -> bytes k w -> apart k v w d <-> d = gap_of k v w.
Proof.
  intros Hk Hv Hw. unfold apart, gap_of. destruct Hk as [ -> | -> ]; cbn [Z.eqb Pos.eqb].
  - assert (H : sum_abs_diff v w mod 256 = sum_abs_diff v w).
    { destruct Hv as [L1 B1], Hw as [L2 B2]. destruct v as [|x [|]]; cbn [length] in L1; try lia. destruct w as [|y [|]]; cbn [length] in L2; try lia. inversion B1; inversion B2; subst. cbn [sum_abs_diff]. apply Z.mod_small. lia. }
    rewrite H. reflexivity.
  - destruct (chroma_ok v w Hv Hw) as (r & E & C & Hr). rewrite E. assert (M : 0 <= sum_abs_diff v w mod 256 < 256) by (apply Z.mod_pos_bound; lia).
    assert (D : 0 <= sum_abs_diff v w mod 256 / 2 < 128) by (split; [ apply Z.div_pos; lia | apply Z.div_lt_upper_bound; lia ]).
    assert (Ec : cmixdist (sum_abs_diff v w mod 256) r = sum_abs_diff v w mod 256 / 2 + 4 * r) by (unfold cmixdist, uconv; rewrite Z.mod_small; lia). rewrite Ec. split.
    + intros (r' & C' & ->). now rewrite (chroma_unique v w r' r C' C).
    + intros ->. exists r. auto.
Qed.
Lemma apart_le k v w l : k = 1 \/ k = 3 -> bytes k v -> bytes k w -> (exists d, apart k v w d /\ d <= l) <-> gap_of k v w <= l.
Proof. intros Hk Hv Hw. split; [ intros (d & A & H); apply apart_iff in A; auto; subst d; exact H | intros H; exists (gap_of k v w); split; [ apply apart_iff; auto | exact H ] ]. Qed.

Lemma total1 f : total 1 f = f 0 + 0. Proof. reflexivity. Qed.
Lemma total3 f : total 3 f = f 0 + (f 1 + (f 2 + 0)). Proof. reflexivity. Qed.
Lemma mismatch_differing vals ref thr e d : length vals = 16%nat -> is_descriptor vals ref thr e -> 0 <= d -> Z.of_N (differing 16 (Z.to_N e) (Z.to_N d)) = mismatch vals ref thr d.
Proof.
  intros L D Hd. destruct (mismatch_hdist vals ref thr e d L D Hd) as (h & E & M). rewrite hdist_differing in E by lia. change (8 * 2)%nat with 16%nat in E. injection E as <-. exact M.
Qed.
Lemma mismatch_self vals ref thr e : length vals = 16%nat -> is_descriptor vals ref thr e -> mismatch vals ref thr e = 0.
Proof.
  intros L D. rewrite (mismatch_bits vals ref thr e e L D). assert (H : forall l, count (fun n => xorb (Z.testbit e (Z.of_nat n)) (Z.testbit e (Z.of_nat n))) l = 0).
  { induction l as [|a l IH]; [ reflexivity |]. rewrite count_cons, IH, xorb_nilpotent. reflexivity. }
  apply H.
Qed.
Lemma ones_differing x : forall w, ones w x = differing w x 0.
Proof. induction w as [|w IH]; [ reflexivity |]. cbn [ones differing]. rewrite IH, N.bits_0. destruct (N.testbit x (N.of_nat w)); reflexivity. Qed.
Lemma mismatch_zero vals ref thr : length vals = 16%nat -> mismatch vals ref thr 0 = count (fun y => thr <? Z.abs (y - ref)) vals.
Proof.
  intros L. unfold mismatch. assert (H : forall (l : list Z) a, count (fun nv : nat * Z => xorb (thr <? Z.abs (snd nv - ref)) (Z.testbit 0 (Z.of_nat (fst nv)))) (combine (seq a (length l)) l) = count (fun y => thr <? Z.abs (y - ref)) l).
  { induction l as [|y l IH]; intros a; [ reflexivity |]. cbn [length seq combine]. rewrite !count_cons, IH. cbn [fst snd]. rewrite Z.bits_0, xorb_false_r. reflexivity. }
  rewrite <- L. apply H.
Qed.
Lemma around_length k sz img p x : length (Spec.Lobster.around k sz img p x) = 16%nat.
Proof. unfold Spec.Lobster.around. now rewrite map_length. Qed.

Section Spec.
  Context (c : config) (sc : scene) (Hk : ch c = 1 \/ ch c = 3) (Hmost : (0 < most c)%nat) (Hglob : (0 < globals c)%nat) (Hminc : 0 <= minc c) (Hsc : scene_ok sc).
  Notation k := (ch c). Notation sz := (size sc). Notation n := (locals c). Notation N := (Z.of_nat (length (pxs sc))).

  Lemma own_ok lut img p s w now : byte_image img -> glance_ok c sc lut img p s -> good_word c now w -> own_texture k lut sz img p w = intra_to s w.
  Proof.
    intros B G (_ & [L F] & _). unfold own_texture, intra_to. rewrite (s_desc c sc lut img p s G). unfold texel.
    assert (T : forall x d, 0 <= d -> Z.of_N (differing 16 (Z.to_N (SubsensePixel.tex (sub c) sz lut img p x)) (Z.to_N d)) = mismatch (Spec.Lobster.around k sz img p x) (value k sz img p x) (lut (value k sz img p x)) d).
    { intros x d Hd. apply mismatch_differing; [ apply around_length | apply (SubsensePixel.tex_ok (sub c) sz ltac:(cbn; lia) lut img p x B) | exact Hd ]. }
    destruct Hk as [E | E].
    - rewrite E in *. rewrite total1. destruct (tex w) as [|a [|]]; cbn [length] in L; try lia. inversion F; subst. change (zrange 0 1) with [0]. cbn [map differing_arr nth Z.to_nat]. rewrite N.add_0_r. rewrite (T 0 a) by lia. lia.
    - rewrite E in *. rewrite total3. destruct (tex w) as [|a [|b [|d [|]]]]; cbn [length] in L; try lia. repeat match goal with H : Forall _ (_ :: _) |- _ => inversion H; clear H; subst end. change (zrange 0 3) with [0; 1; 2].
      cbn [map differing_arr]. rewrite N.add_0_r, !N2Z.inj_add, (T 0 a), (T 1 b), (T 2 d) by lia. change (Z.to_nat 0) with 0%nat. change (Z.to_nat 1) with 1%nat. change (Z.to_nat 2) with 2%nat. cbn [nth]. lia.
  Qed.
  Lemma cross_ok lut img p w now : byte_image img -> good_word c now w -> cross_texture k lut sz img p w = inter_to c sc lut img p w.
  Proof.
    intros B ([L1 F1] & [L F] & _). unfold cross_texture, inter_to, inter_of.
    assert (T : forall x v d, 0 <= v <= 255 -> 0 <= d -> Z.of_N (differing 16 (Z.to_N (match texture (SubsenseFrame.low (sub c) lut) (Spec.Lobster.around k sz img p x) v with Some e => e | None => 0 end)) (Z.to_N d)) = mismatch (Spec.Lobster.around k sz img p x) v (lut v) d).
    { intros x v d Hv Hd. destruct (texture_around (SubsenseFrame.low (sub c) lut) sz ltac:(cbn; lia) img p x v B Hv) as (e & E & D). change (channels (SubsenseFrame.low (sub c) lut)) with k in E, D. rewrite E.
      apply mismatch_differing; [ apply around_length | exact D | exact Hd ]. }
    destruct Hk as [E | E].
    - rewrite E in *. rewrite total1. destruct (tex w) as [|a [|]]; cbn [length] in L; try lia. destruct (colour w) as [|v [|]]; cbn [length] in L1; try lia. inversion F; inversion F1; subst. change (zrange 0 1) with [0].
      cbn [map combine differing_arr nth Z.to_nat fst snd]. rewrite N.add_0_r. rewrite (T 0 v a) by lia. lia.
    - rewrite E in *. rewrite total3. destruct (tex w) as [|a [|b [|d [|]]]]; cbn [length] in L; try lia. destruct (colour w) as [|v1 [|v2 [|v3 [|]]]]; cbn [length] in L1; try lia.
      repeat match goal with H : Forall _ (_ :: _) |- _ => inversion H; clear H; subst end. change (zrange 0 3) with [0; 1; 2].
      cbn [map combine differing_arr fst snd]. rewrite N.add_0_r, !N2Z.inj_add, (T 0 v1 a), (T 1 v2 b), (T 2 v3 d) by lia. change (Z.to_nat 0) with 0%nat. change (Z.to_nat 1) with 1%nat. change (Z.to_nat 2) with 2%nat. cbn [nth]. lia.
  Qed.
  Lemma contrast_ok lut img p : byte_image img -> ones_of (texel c sc lut img p) = contrast k lut sz img p.
  Proof.
    intros B. unfold ones_of, texel, contrast, total. rewrite map_map. f_equal. apply map_ext. intros x. rewrite ones_differing. change 0%N with (Z.to_N 0).
    rewrite (mismatch_differing (Spec.Lobster.around k sz img p x) (value k sz img p x) (lut (value k sz img p x))); [ apply mismatch_zero, around_length | apply around_length | | lia ].
    apply (SubsensePixel.tex_ok (sub c) sz ltac:(cbn; lia) lut img p x B).
  Qed.
  Lemma cur_pixel lut img p s : glance_ok c sc lut img p s -> cur s = pixel_of k sz img p.
  Proof. intros G. exact (s_cur c sc lut img p s G). Qed.
  Lemma portrait_ok lut img p s : byte_image img -> glance_ok c sc lut img p s -> portrait k lut sz img p (cur s) (desc s).
  Proof.
    intros B G. split; [ apply (cur_pixel lut); exact G |]. rewrite (s_desc c sc lut img p s G). unfold texel. split; [ rewrite map_length; unfold zrange; rewrite zseq_length; lia |].
    intros x Hx. rewrite (nth_indep _ 0 (SubsensePixel.tex (sub c) sz lut img p 0)) by (rewrite map_length; unfold zrange; rewrite zseq_length; lia). rewrite (map_nth (SubsensePixel.tex (sub c) sz lut img p)). unfold zrange. rewrite nth_zseq by lia.
    replace (0 + Z.of_nat (Z.to_nat x)) with x by lia. destruct (SubsensePixel.tex_ok (sub c) sz ltac:(cbn; lia) lut img p x B) as [_ D]. split; [ apply D |]. apply mismatch_self; [ apply around_length | exact D ].
  Qed.
  Lemma fits_ok lut img p s w now : byte_image img -> glance_ok c sc lut img p s -> good_word c now w -> matching c sc lut img p s w = true <-> fits k lut sz img p (fst (ths s)) (snd (ths s)) w.
  Proof.
    intros B G W. unfold matching, fits, texture_to. rewrite (own_ok lut img p s w now B G W), (cross_ok lut img p w now B W), andb_true_iff, !Z.leb_le, <- (cur_pixel lut img p s G).
    rewrite (apart_le k (cur s) (colour w) _ Hk) by (try apply W; apply (cur_bytes c sc Hk lut img p s B G)). unfold colour_to. tauto.
  Qed.
  Lemma limits_ok p t : (1 <= Subsense.radius p)%Q -> thresholds c p = Done t -> limits c p (fst t) (snd t).
  Proof.
    intros Hr. unfold thresholds. destruct (64 <=? Subsense.shift_amount p) eqn:E; [ discriminate |]. apply Z.leb_gt in E. intros H.
    exists (reach c p), (Subsense.shift_amount p). split; [ apply Z.sqrt_nonneg |]. split.
    - unfold reach. set (y := Qfloor (Subsense.radius p * inject_Z (minc c * minc c))).
      assert (Hm : (0 <= inject_Z (minc c * minc c))%Q) by (change 0%Q with (inject_Z 0); rewrite <- Zle_Qle; nia).
      assert (Hy : 0 <= y) by (change 0 with (Qfloor 0); apply Qfloor_resp_le; nra).
      pose proof (Z.sqrt_spec y Hy) as S. cbv zeta in S. pose proof (Qfloor_le (Subsense.radius p * inject_Z (minc c * minc c))) as F1. pose proof (Qlt_floor (Subsense.radius p * inject_Z (minc c * minc c))) as F2. fold y in F1, F2.
      split.
      + eapply Qle_trans; [| exact F1 ]. rewrite <- Zle_Qle. apply S.
      + eapply Qlt_le_trans; [ exact F2 |]. rewrite <- Zle_Qle. unfold Z.succ in S. lia.
    - split; [ exact E |]. split; [ unfold Subsense.shift_amount; split; [ apply Qfloor_le | apply Qlt_floor ] |]. injection H as <-. cbv zeta.
      assert (D : 2 ^ Subsense.shift_amount p + doff c + (if Subsense.unstable p then doff c else 0) = 2 ^ Subsense.shift_amount p + (if Subsense.unstable p then 2 * doff c else doff c)) by (destruct (Subsense.unstable p); lia).
      destruct (ch c =? 1); cbn [fst snd]; unfold Subsense.u64; rewrite D; split; try lia; try reflexivity.
  Qed.
  Lemma heft_weight now off w : weight now off w = heft now off w.
  Proof. unfold weight, heft. do 2 f_equal. ring. Qed.
  Lemma support_ok st img p s ws : weighed c sc st img p s ws = support (frame (lev st)) (woff (lev st)) (matching c sc (lut (lev st)) img p s) ws.
  Proof. unfold weighed, support, sum. induction ws as [|w ws IH]; [ reflexivity |]. cbn [fold_right]. rewrite IH, heft_weight. reflexivity. Qed.
  Lemma resembles_ok ths v b g : bytes k v -> 0 <= b <= 48 -> good_gword c g -> (akin c ths v b g = Done true <-> resembles k v b (fst ths) (snd ths) g) /\ (akin c ths v b g = Done false <-> ~ resembles k v b (fst ths) (snd ths) g).
  Proof.
    intros Hv Hb (A & B & _). unfold akin, resembles. rewrite (proj1 (colour_gap_ok c (gcol g) v Hk A Hv)), (apart_le k (gcol g) v _ Hk A Hv). cbn [obind].
    rewrite L1dist_exact; [| now left | left; unfold in_u; lia ]. cbn [access obind]. destruct (Z.leb_spec (gap_of k (gcol g) v) (fst ths)) as [L|L].
    - destruct (Z.leb_spec (Z.abs (b - gbits g)) (snd ths / 4)) as [M|M]; split; split; intros H; try discriminate; try reflexivity; try tauto; lia.
    - split; split; intros H; try discriminate; try reflexivity; lia.
  Qed.
  Lemma first_such {A} (P : A -> Prop) (dec : forall a, {P a} + {~ P a}) l : (exists a, In a l /\ P a) -> exists a l1 l2, l = l1 ++ a :: l2 /\ P a /\ forall y, In y l1 -> ~ P y.
  Proof.
    induction l as [|x l IH]; intros (a & I & H); [ destruct I |]. destruct (dec x) as [D|D]; [ exists x, [], l; split; [ reflexivity |]; split; [ exact D | intros y [] ] |].
    destruct I as [ <- | I ]; [ contradiction |]. destruct IH as (b & l1 & l2 & E & Hb & Hy); [ exists a; auto |]. exists b, (x :: l1), l2. split; [ rewrite E; reflexivity |]. split; [ exact Hb |]. intros y [ <- | Iy ]; auto.
  Qed.

  Lemma step_ok now img ov ji st fg st' : byte_image img -> acts c sc now img ov ji st fg st' -> step c sc img ji st fg st'.
  Proof.
    intros B (p & done & Hp & Ej & Hin & Hj & [N1 N2 N3 N4 N5 N6 N7 N8 N9 N10] & Hnd & [(s & G & Gt & Gb & Gf & Gi & (w0 & Ew0 & Gg) & X) Xl Xo Xd Xs Xg]). cbv zeta in X.
    destruct X as (X1 & X2 & X3 & prs & m1 & m2 & Pm & Pc & (pr & low & Epr & Plow) & Pw & Pe & Ps1 & Ps2 & Prep & Ps3 & Pn & Pm2).
    set (b := fst ji * Z.of_nat n) in *. set (ws := region (dict st) b n) in *. set (i := place sz p) in *.
    assert (Hpx : pixel_ok (now - 1) (px st i)) by (specialize (N10 i Hin); destruct (in_dec _ _ _); [ contradiction | exact N10 ]).
    pose proof N5 as [D1 D2 D3]. rewrite <- N1 in D3. pose proof (region_in c sc Hmost Hglob (dict st) (fst ji) D2 Hj) as Hw. unfold WordDict.within in Hw. fold b in Hw. pose proof (locals_pos c Hmost Hglob) as Hlp.
    assert (Hws : words_at (dict st) b ws) by (apply (region_words c (fun _ => 0) ltac:(intros; lia) Hmost Hglob); intros t Ht; apply N6; lia). assert (Lw : length ws = n) by (unfold ws, region; now rewrite map_length, seq_length).
    assert (Gw : forall w, In w ws -> good_word c (frame (lev st)) w).
    { intros w I. destruct (In_nth_error _ _ I) as (x & Ex). assert (x < length ws)%nat by (apply nth_error_Some; congruence). eapply cells_val; [ exact D1 | exact D3 | | apply Hws; exact Ex ]. lia. }
    set (f := matching c sc (lut (lev st)) img p s). set (lc := fst (ths s)). set (lt := snd (ths s)).
    assert (Hf : forall w, In w ws -> f w = true <-> fits k (lut (lev st)) sz img p lc lt w) by (intros w I; apply (fits_ok _ img p s w (frame (lev st)) B G (Gw w I))).
    assert (Eb : bits s = contrast k (lut (lev st)) sz img p) by (destruct (s_bits _ _ _ _ _ _ G) as [-> _]; rewrite (s_desc _ _ _ _ _ _ G); apply contrast_ok; exact B).
    rewrite contrast_ok in Gf by exact B. assert (Hcur : cur s = pixel_of k sz img p) by exact (cur_pixel _ img p s G). pose proof (cur_bytes c sc Hk _ img p s B G) as Bc. pose proof (proj2 (s_bits _ _ _ _ _ _ G)) as Bb.
    assert (Hgoal : goal s = goal_of sc p st ws).
    { unfold goal_of. destruct ws as [|w ws'] eqn:Ews; [ cbn in Lw; lia |]. specialize (Hws 0%nat w eq_refl). rewrite Z.add_0_r in Hws. assert (w = w0) by congruence. subst w0. rewrite Gg, heft_weight. reflexivity. }
    assert (Hsup : weighed c sc st img p s ws = support (frame (lev st)) (woff (lev st)) f ws) by apply support_ok. rewrite Hsup in *.
    assert (Hen : enough sc p st ws f <-> (goal s <= support (frame (lev st)) (woff (lev st)) f ws)%Q) by (unfold enough; rewrite Hgoal; reflexivity).
    assert (Hbd : border s = true <-> roi sc i < 255) by (rewrite Gb; apply Z.ltb_lt).
    assert (Gg' : forall a, 0 <= a < Z.of_nat (globals c) -> good_gword c (cells (glob st) a)).
    { intros a Ha. apply (cell_ok c Hmost Hglob (glob st) a N7 N8 Ha). }
    set (res := fun a => resembles k (pixel_of k sz img p) (contrast k (lut (lev st)) sz img p) lc lt (cells (glob st) a)).
    assert (Hres : forall a, 0 <= a < Z.of_nat (globals c) -> (akin c (ths s) (cur s) (bits s) (cells (glob st) a) = Done true <-> res a) /\ (akin c (ths s) (cur s) (bits s) (cells (glob st) a) = Done false <-> ~ res a)).
    { intros a Ha. unfold res. rewrite <- Hcur, <- Eb. apply resembles_ok; auto. }
    assert (Hadd : forall a y, 0 <= a < Z.of_nat (globals c) -> map_at sc (cells (glob st) a) i = Done y <-> exists m, gmap (cells (glob st) a) = Some m /\ y = m ((snd (point sz i) / 2) * (fst sz / 2) + fst (point sz i) / 2)).
    { intros a y Ha. unfold map_at. destruct (Gg' a Ha) as (_ & _ & _ & m & Em & _). rewrite Em. unfold i. rewrite access_get by (apply (map_in c sc Hmost Hglob); exact Hp). fold i. unfold map_place. split.
      - intros E. injection E as <-. eauto.
      - intros (m' & E & ->). injection E as <-. reflexivity. }
    assert (Hforg : forgiven c sc st s i (support (frame (lev st)) (woff (lev st)) f ws) -> exists a, 0 <= a < Z.of_nat (globals c) /\ excused c sc img p st ws lc lt f a).
    { intros (a & l1 & l2 & Eo & Ea & _ & y & Ey & Hy). assert (Ha : 0 <= a < Z.of_nat (globals c)) by (apply (places_in c Hmost Hglob (order st i)); [ apply N9 | rewrite Eo; apply in_or_app; right; now left ]).
      exists a. split; [ exact Ha |]. split; [ apply Hres; auto |]. apply Hadd in Ey; [| exact Ha ]. destruct Ey as (m & Em & ->). eexists. split; [ exists m; split; [ exact Em | reflexivity ] |].
      rewrite Gf in Hy. fold i. rewrite <- Hgoal. exact Hy. }
    exists p, ws, lc, lt, f. split; [ exact Hp |]. split; [ exact Ej |]. split; [| split ].
    - split; [ split; [ exact Lw | exact Hws ] | apply limits_ok; [ apply Hpx | exact Gt ] | exact Hf ].
    - split.
      + intros [H|H]; apply X1; [ left; apply Hen; exact H | right; apply Hbd; exact H ].
      + intros H. destruct (X2 H) as [E|[E|E]]; [ left; apply Hen; exact E | right; left; apply Hbd; exact E | right; right; apply Hforg; exact E ].
      + intros Hfl (a & Ha & Ra) Hall. destruct X3 as [E|[E|[E|E]]]; [ apply X1; now left | apply X1; now right | rewrite Gf, Hfl in E; discriminate |]. apply E.
        set (test := fun x => match akin c (ths s) (cur s) (bits s) (cells (glob st) x) with Done true => true | _ => false end).
        assert (Ht : forall x, 0 <= x < Z.of_nat (globals c) -> (test x = true <-> res x)).
        { intros x Hx. destruct (Hres x Hx) as [A1 A2]. unfold test. destruct (akin_ok c Hk Hmost Hglob (ths s) (cur s) (bits s) (cells (glob st) x) Bc Bb (Gg' x Hx)) as (y & Ey). rewrite Ey in *. destruct y; [ tauto |].
          split; [ discriminate |]. intros Hr. exfalso. apply A2; [ reflexivity | exact Hr ]. }
        assert (Hord : forall x, In x (order st i) <-> 0 <= x < Z.of_nat (globals c)).
        { intros x. split; [ apply (places_in c Hmost Hglob); apply N9 |]. intros Hx. eapply Permutation_in; [ apply Permutation_sym, N9 |]. apply in_zrange. lia. }
        destruct (first_such (fun x => test x = true) (fun x => bool_dec (test x) true) (order st i)) as (x & l1 & l2 & El & Tx & Hl); [ exists a; split; [ apply Hord; exact Ha | apply Ht; auto ] |].
        assert (Hx : 0 <= x < Z.of_nat (globals c)) by (apply Hord; rewrite El; apply in_or_app; right; now left).
        apply Ht in Tx; [| exact Hx ]. exists x, l1, l2. split; [ exact El |]. split; [ apply Hres; auto |]. split.
        * intros y Iy. assert (Hy : 0 <= y < Z.of_nat (globals c)) by (apply Hord; rewrite El; apply in_or_app; now left). apply Hres; [ exact Hy |]. intros R. apply (Hl y Iy), Ht; auto.
        * destruct (Hall x Hx Tx) as (_ & y & (m & Em & Ey) & Hy). eexists. split; [ apply Hadd; [ exact Hx | exists m; split; [ exact Em | reflexivity ] ] |]. rewrite Gf, Hgoal. rewrite Ey in Hy. exact Hy.
    - split; [| split; assumption | exact Xg | exact Xs ].
      assert (Eg : incr s = (1 + cool (lev st)) * (if (contrast k (lut (lev st)) sz img p <? (if k =? 1 then 2 else 4)) || (frame (lev st) <=? 500) then 2 else 1)) by (rewrite Gi, Gf; reflexivity).
      assert (Hnew : new_word c sc img p st (fresh (frame (lev st)) s)).
      { split; [ cbn [fresh colour tex]; apply (portrait_ok _ img p s B G) |]. cbn [fresh first latest occ]. split; [ reflexivity |]. split; [ reflexivity | exact Eg ]. }
      assert (Sh : len (dict st) = N * Z.of_nat n /\ len m1 = N * Z.of_nat n /\ len m2 = N * Z.of_nat n) by (destruct Ps1 as (_ & _ & E1), Ps2 as (_ & _ & E2); lia). destruct Sh as (Sh0 & Sh1 & Sh2).
      assert (Hcmp : forall w w', In w ws -> renewed c sc (lut (lev st)) img p s (frame (lev st)) w w' -> compared c sc img p st lc lt f w w').
      { intros w w' I [R1 R2 R3]. specialize (Gw w I). split; [ exact R1 | |].
        - destruct R2 as [R2|(R2 & R4 & R5 & R6)]; [ left; exact R2 |]. right. rewrite R2, R4. split; [ apply (portrait_ok _ img p s B G) |]. rewrite <- Hcur. split.
          + apply apart_le; [ exact Hk | exact Bc | apply Gw | exact R5 ].
          + rewrite (own_ok _ img p s w _ B G Gw). exact R6.
        - destruct R3 as [R3|(R3 & R4 & R5)]; [ left; exact R3 |]. right. split; [ exact R3 |]. split; [ exact R4 |]. rewrite Eg in R5. exact R5. }
      subst prs. exists pr, low, (val m1), (val m2). split; [ exact Pm |]. split.
      { apply Forall_forall. intros x Ix. rewrite Forall_forall in Pc. apply Hcmp; [| apply Pc; exact Ix ]. eapply Permutation_in; [ exact Pm |]. apply in_map. exact Ix. }
      split. { eapply Forall_impl; [| exact Plow ]. intros x Hx. cbv beta in Hx. rewrite !heft_weight in Hx. exact Hx. }
      split; [ exact Pw |]. split. { intros t Ht Hn. apply Pe; lia. }
      split.
      { destruct Prep as [ -> | (Q1 & Q2 & Q3 & Q4) ]; [ left; reflexivity |]. right. split; [ rewrite Hen; exact Q1 |]. split; [ fold i; apply Z.nlt_ge; intros C; apply Hbd in C; congruence |]. split; [ exact Q3 |]. split.
        - exists (fresh (frame (lev st)) s). split; [| exact Hnew ]. rewrite Q4 by lia. unfold upd. rewrite Z.eqb_refl. reflexivity.
        - intros t Ht Hne. rewrite Q4 by lia. unfold upd. destruct (Z.eqb_spec t (b + Z.of_nat n - 1)) as [E|_]; [ contradiction | reflexivity ]. }
      destruct Pn as [E|(q & Hq & Wq & Rq & [Q1 Q2])]; [ left; rewrite E; reflexivity |].
      destruct fg eqn:Efg; [ destruct (moving (lev st)) eqn:Emv; [| left; rewrite (Pm2 eq_refl eq_refl); reflexivity ] |]; right.
      all: assert (Iq : In (place sz q) (pxs sc)) by (apply (sc_roi sc Hsc); assumption); destruct (place_in_ok c Hmost Hglob (place sz q) (pxs sc) Iq) as [Hjq Enq]; exists q, (Z.to_nat (place_in (place sz q) (pxs sc)));
        (split; [ exact Hq |]); (split; [ exact Wq |]); (split; [ rewrite <- Enq at 2; apply nth_error_nth'; lia |]); cbv zeta; rewrite !Z2Nat.id by lia; (split; [ intros; first [ discriminate | reflexivity ] |]); split.
      all: try (intros t Ht Hn; apply Q1; [ lia | exact Hn ]).
      all: intros t Ht; destruct (Q2 t Ht) as (w & w' & V1 & V2 & V3); exists w, w'; (split; [ exact V1 |]); (split; [ exact V2 |]);
        (destruct V3 as [[T1 T2 T3 T4 T5 T6]|[T1 T2]]; [ left; split; auto; [ rewrite <- Hcur; exact T2 | destruct T3 as [ T3 | T3 ]; [ now left | right; rewrite T3, <- Hcur; apply (portrait_ok _ img p s B G) ] ] | right; split; [ exact T1 | rewrite T2; exact Hnew ] ]).
  Qed.
  Lemma walk_ok now img ov l st m st' : byte_image img -> chain (acts c sc now img ov) l st m st' -> walk (step c sc img) l st m st'.
  Proof. intros B H. induction H as [|l st m st1 ji fg st2 _ IH A]; [ constructor |]. econstructor; [ exact IH |]. eapply step_ok; eauto. Qed.
End Spec.
