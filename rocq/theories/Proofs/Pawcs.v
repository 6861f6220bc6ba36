From Coq Require Import ZArith NArith QArith Qround Qminmax List Bool Lia Lqa Sorting.Permutation.
From Verif Require Import Lib.Grid Model.Bits Model.Distances Model.Sampling Model.Simd Model.Lbsp Model.RoiTable Model.Pbas Spec.Bits Spec.Simd Spec.Lbsp Proofs.Bits Proofs.Lbsp
  Proofs.Sampling Spec.RoiTable Proofs.RoiTable Spec.Distances Proofs.Distances Spec.Vibe.
From Verif Require Spec.Subsense Proofs.Subsense Spec.SubsenseFrame Proofs.SubsensePixel Proofs.SubsenseRun Proofs.LobsterRun.
From Verif Require Import Proofs.Vibe Proofs.Lobster.
From Verif Require Import Spec.Vibe Model.Lobster Spec.Lobster Model.WordDict Proofs.WordDict Model.Pawcs.
From Verif Require Model.SubsenseFrame.
Import ListNotations.
Open Scope Z_scope.

(* a computation that ends well, or shifts by too much when K holds *)
Definition safe {S} (K : Prop) (P : S -> Prop) (o : outcome S) : Prop := match o with Done s => P s | Fault Shift64 => K | _ => False end.
Lemma safe_ok {S} K (P : S -> Prop) o : ok P o -> safe K P o. Proof. destruct o; cbn; try easy. Qed.
Lemma safe_bind {S T} K (P : S -> Prop) (Q : T -> Prop) (o : outcome S) (f : S -> outcome T) : safe K P o -> (forall s, P s -> safe K Q (f s)) -> safe K Q (obind o f).
Proof. destruct o as [s| | |[]]; cbn; try easy. auto. Qed.
Lemma safe_bind_eq {S T} K (P : S -> Prop) (Q : T -> Prop) (o : outcome S) (f : S -> outcome T) : safe K P o -> (forall s, o = Done s -> P s -> safe K Q (f s)) -> safe K Q (obind o f).
Proof. destruct o as [s| | |[]]; cbn; try easy. auto. Qed.
Lemma safe_mono {S} K (P Q : S -> Prop) o : safe K P o -> (forall s, P s -> Q s) -> safe K Q o.
Proof. destruct o as [s| | |[]]; cbn; auto. Qed.
Lemma safe_each {A S} K (I : S -> Prop) (f : A -> S -> outcome S) l : (forall a s, In a l -> I s -> safe K I (f a s)) -> forall s, I s -> safe K I (each f l s).
Proof.
  induction l as [|a l IH]; intros H s Hs; [ exact Hs |]. cbn [each]. apply (safe_bind K I).
  - apply H; [ now left | exact Hs ].
  - intros s' Hs'. apply IH; [| exact Hs' ]. intros x y Hx. apply H. now right.
Qed.
Lemma safe_each_pre {A S} K (I : list A -> S -> Prop) (f : A -> S -> outcome S) l : forall done s,
  (forall d a r s, done ++ l = d ++ a :: r -> I d s -> safe K (I (d ++ [a])) (f a s)) -> I done s -> safe K (I (done ++ l)) (each f l s).
Proof.
  induction l as [|a l IH]; intros d s H Hs; [ rewrite app_nil_r; exact Hs |]. cbn [each]. apply (safe_bind K (I (d ++ [a]))).
  - exact (H d a l s eq_refl Hs).
  - intros s' Hs'. replace (d ++ a :: l) with ((d ++ [a]) ++ l) by (rewrite <- app_assoc; reflexivity). apply IH; [| exact Hs' ].
    intros d' a' r s'' E. apply (H d' a' r s''). rewrite <- E, <- app_assoc. reflexivity.
Qed.

(* ------------------------------------------------------------------ colours and textures *)
Definition bytes (k : Z) (v : list Z) : Prop := Z.of_nat (length v) = k /\ Forall (fun x => 0 <= x <= 255) v.
Definition textures (k : Z) (e : list Z) : Prop := Z.of_nat (length e) = k /\ Forall (fun x => 0 <= x < 2 ^ 16) e.

Lemma bytes_u v : Forall (fun x => 0 <= x <= 255) v -> Forall (in_u 8) v.
Proof. apply Forall_impl. intros x H. unfold in_u. lia. Qed.
Lemma bytes_pairs : forall v w, length v = length w -> Forall (fun x => 0 <= x <= 255) v -> Forall (fun x => 0 <= x <= 255) w -> Forall2 (same_type 8) v w.
Proof.
  induction v as [|a v IH]; intros [|b w] L Hv Hw; try discriminate; [ constructor |]. inversion Hv; subst. inversion Hw; subst. constructor.
  - left. unfold in_u. lia.
  - apply IH; auto.
Qed.
Lemma plain_gap_ok k v w : bytes k v -> bytes k w -> plain_gap v w = Done (sum_abs_diff v w mod 256).
Proof.
  intros [L1 B1] [L2 B2]. unfold plain_gap. rewrite L1dist_arr_mod; [ reflexivity | now left | lia | apply bytes_pairs; auto; lia | lia ].
Qed.
Lemma plain_gap_range k v w : bytes k v -> bytes k w -> 0 <= sum_abs_diff v w mod 256 <= 255.
Proof. intros _ _. pose proof (Z.mod_pos_bound (sum_abs_diff v w) 256 ltac:(lia)). lia. Qed.

Lemma grey_dec v : {grey v} + {~ grey v}.
Proof.
  destruct v as [|a v]; [ left; exists 0; constructor |]. destruct (Forall_dec (fun x => x = a) (fun x => Z.eq_dec x a) v) as [H|H].
  - left. exists a. constructor; auto.
  - right. intros [g Hg]. apply H. inversion Hg; subst. assumption.
Qed.
(* the colour distortion is a number below 2^10 *)
Lemma angle_gap_ok v w : bytes 3 v -> bytes 3 w -> exists r, angle_gap v w = Done r /\ 0 <= r < 2 ^ 10.
Proof.
  intros [L1 B1] [L2 B2]. unfold angle_gap. assert (L : length v = length w) by lia.
  destruct (list_eq_dec Z.eq_dec v w) as [E|N]; [ rewrite cdist_shortcut by auto; exists 0; cbn; split; [ reflexivity | lia ] |].
  destruct (grey_dec v) as [G1|G1]; [ destruct (grey_dec w) as [G2|G2]; [ rewrite cdist_shortcut by auto; exists 0; cbn; split; [ reflexivity | lia ] |] |];
    (destruct (cdist_value v w) as (X & r & _ & HX & E & H0 & H1); try lia; auto using bytes_u; [ tauto |]; exists r; rewrite E; split; [ reflexivity |];
     assert (norm2 v <= 195075) by (pose proof (bytes_dot_bound v v (bytes_u _ B1) (bytes_u _ B1)) as D; unfold norm2; lia); split; [ lia | nia ]).
Qed.
Lemma differing_le a b : forall w, (differing w a b <= N.of_nat w)%N.
Proof. induction w as [|w IH]; cbn [differing]; [ lia |]. destruct (Bool.eqb _ _); lia. Qed.
Lemma differing_arr_le w : forall a b, (differing_arr w a b <= N.of_nat w * N.of_nat (length a))%N.
Proof. induction a as [|x a IH]; intros [|y b]; cbn [differing_arr length]; try lia. pose proof (differing_le x y w). specialize (IH b). lia. Qed.
Lemma texture_gap_ok k a b : k = 1 \/ k = 3 -> textures k a -> textures k b -> texture_gap a b = Done (Z.of_N (differing_arr 16 (map Z.to_N a) (map Z.to_N b))) /\ 0 <= Z.of_N (differing_arr 16 (map Z.to_N a) (map Z.to_N b)) <= 16 * k.
Proof.
  intros Hk [L1 B1] [L2 B2]. unfold texture_gap. rewrite hdist_arr_sum by (rewrite ?map_length; (lia || reflexivity)). cbn [access obind]. change (8 * 2)%nat with 16%nat.
  pose proof (differing_arr_le 16 (map Z.to_N a) (map Z.to_N b)) as D. rewrite map_length in D.
  assert (B : (differing_arr 16 (map Z.to_N a) (map Z.to_N b) <= 48)%N) by lia. unfold wrap. rewrite N.add_0_l, N.mod_small by (change (2 ^ 8)%N with 256%N; lia). split; [ reflexivity | lia ].
Qed.
Definition ones_of (e : list Z) : Z := fold_right Z.add 0 (map (fun d => Z.of_N (ones 16 (Z.to_N d))) e).
Lemma ones_le x : forall w, (ones w x <= N.of_nat w)%N.
Proof. induction w as [|w IH]; cbn [ones]; [ lia |]. destruct (N.testbit _ _); lia. Qed.
Lemma ones_of_range e : 0 <= ones_of e <= 16 * Z.of_nat (length e).
Proof. unfold ones_of. induction e as [|d e IH]; cbn [map fold_right length]; [ lia |]. pose proof (ones_le (Z.to_N d) 16). lia. Qed.
Lemma popcount_sum : forall e acc, Z.of_N acc + 16 * Z.of_nat (length e) < 256 -> popcount_arr 8 2 (map Z.to_N e) acc = Some (Z.to_N (Z.of_N acc + ones_of e)).
Proof.
  induction e as [|d e IH]; intros acc H; cbn [map popcount_arr]; [ f_equal; cbn; lia |]. rewrite popcount_ones by lia. change (8 * 2)%nat with 16%nat.
  pose proof (ones_le (Z.to_N d) 16) as D. cbn [length] in H. unfold wrap. rewrite N.mod_small by (change (2 ^ 8)%N with 256%N; lia).
  rewrite IH by lia. f_equal. unfold ones_of. cbn [map fold_right]. lia.
Qed.
Lemma count_bits_ok k e : k = 1 \/ k = 3 -> textures k e -> count_bits e = Done (ones_of e) /\ 0 <= ones_of e <= 48.
Proof.
  intros Hk [L B]. unfold count_bits. rewrite popcount_sum by (change (Z.of_N 0) with 0; lia). cbn [access obind]. change (Z.of_N 0) with 0. pose proof (ones_of_range e). split; [ f_equal; lia | lia ].
Qed.
Definition gap_of (k : Z) (v w : list Z) : Z :=
  if k =? 1 then sum_abs_diff v w mod 256 else match cdist 8 v w with Some d => cmixdist (sum_abs_diff v w mod 256) d | None => 0 end.
Lemma colour_gap_ok c v w : ch c = 1 \/ ch c = 3 -> bytes (ch c) v -> bytes (ch c) w -> colour_gap c v w = Done (gap_of (ch c) v w) /\ 0 <= gap_of (ch c) v w < 2 ^ 13.
Proof.
  intros Hk Hv Hw. unfold colour_gap, gap_of. rewrite (plain_gap_ok (ch c)) by auto. pose proof (plain_gap_range _ _ _ Hv Hw) as R. destruct (ch c =? 1) eqn:E; [ split; [ reflexivity | lia ] |].
  apply Z.eqb_neq in E. assert (E3 : ch c = 3) by lia. rewrite E3 in *. cbn [obind].
  destruct (angle_gap_ok v w Hv Hw) as (r & Er & Hr). rewrite Er. unfold angle_gap in Er. destruct (cdist 8 v w) as [d|]; [| discriminate ]. cbn [access] in Er. injection Er as ->. cbn [obind].
  split; [ reflexivity |]. unfold cmixdist, uconv. pose proof (Z.div_pos (sum_abs_diff v w mod 256) 2 ltac:(lia) ltac:(lia)). assert (sum_abs_diff v w mod 256 / 2 < 128) by (apply Z.div_lt_upper_bound; lia).
  rewrite Z.mod_small; lia.
Qed.

(* ------------------------------------------------------------------ what is kept for a pixel *)
Definition boost (n : Z) : Z := n + Z.min n 500.
Record pixel_ok (n : Z) (p : Subsense.pixel) : Prop := {
  p_rate : (1 <= Subsense.rate p <= 256)%Q;
  p_mod : ((1 # 10) <= Subsense.modulator p <= 10 + inject_Z (boost n))%Q;
  p_radius : (1 <= Subsense.radius p <= 9 + (1 # 100) * (10 + inject_Z (boost n) - (1 # 10)))%Q;
  p_unit : Forall Spec.Subsense.unit [Subsense.min_lt p; Subsense.min_st p; Subsense.raw_lt p; Subsense.raw_st p; Subsense.final_lt p; Subsense.final_st p] }.

Lemma thresholds_ok c n p : pixel_ok n p -> 0 <= minc c -> safe (4940 < n) (fun t => 0 <= fst t /\ 0 <= snd t) (thresholds c p).
Proof.
  intros H Hm. unfold thresholds. destruct (64 <=? Subsense.shift_amount p) eqn:E.
  - apply Z.leb_le in E. cbn [safe]. unfold Subsense.shift_amount in E. pose proof (Qfloor_le (Subsense.radius p + (1 # 2))) as F. apply Proofs.Subsense.inject_le in E. change (inject_Z 64) with 64%Q in E.
    destruct (p_radius n p H) as [_ R]. assert (B : (5440 < inject_Z (boost n))%Q) by lra. change 5440%Q with (inject_Z 5440) in B. rewrite <- Zlt_Qlt in B. unfold boost in B. lia.
  - cbn [safe]. assert (R : 0 <= reach c p) by apply Z.sqrt_nonneg. assert (U : forall z, 0 <= Subsense.u64 z) by (intros z; unfold Subsense.u64; apply Z.mod_pos_bound; lia).
    destruct (ch c =? 1); cbn [fst snd]; (split; [| apply U ]); [ apply Z.div_pos; lia | lia ].
Qed.

Definition good_word (c : config) (now : Z) (w : word) : Prop := bytes (ch c) (colour w) /\ textures (ch c) (tex w) /\ 0 <= first w <= latest w /\ latest w <= now /\ 0 <= occ w.
Lemma good_later c now now' w : now <= now' -> good_word c now w -> good_word c now' w.
Proof. unfold good_word. intros H (A & B & C & D & E). repeat split; try apply A; try apply B; lia. Qed.
Lemma good_again c now n w : 0 <= n -> good_word c now w -> good_word c now (again now n w).
Proof. unfold good_word, again. intros H (A & B & C & D & E). cbn. repeat split; try apply A; try apply B; lia. Qed.

(* the region of interest *)
Record scene_ok (sc : scene) : Prop := {
  sc_nodup : NoDup (pxs sc);
  sc_listed : forall i, In i (pxs sc) -> exists p, inner (size sc) p /\ i = place (size sc) p;
  sc_roi : forall p, inner (size sc) p -> roi sc (place (size sc) p) <> 0 -> In (place (size sc) p) (pxs sc) }.

Section Refresh.
  Context (c : config) (rnd : nat -> Z) (sc : scene) (Hrnd : forall k, 0 <= rnd k) (Hk : ch c = 1 \/ ch c = 3) (Hmost : (0 < most c)%nat) (Hglob : (0 < globals c)%nat) (Hminc : 0 <= minc c) (Hsc : scene_ok sc).
  Notation k := (ch c). Notation sz := (size sc). Notation n := (locals c). Notation N := (Z.of_nat (length (pxs sc))).

  Lemma locals_pos : (0 < n)%nat.
  Proof. unfold locals. destruct (k =? 1); lia. Qed.
  Lemma region_in (m : store word) j : len m = N * Z.of_nat n -> 0 <= j < N -> within m (j * Z.of_nat n) n.
  Proof. intros L Hj. unfold within. rewrite L. split; nia. Qed.
  Lemma numbered_in j i : In (j, i) (numbered sc) -> 0 <= j < N /\ In i (pxs sc) /\ nth (Z.to_nat j) (pxs sc) 0 = i.
  Proof.
    unfold numbered. intros I. pose proof (in_combine_l _ _ _ _ I) as I1. pose proof (in_combine_r _ _ _ _ I) as I2. apply in_zrange in I1. split; [ lia |]. split; [ exact I2 |].
    destruct (In_nth _ _ (0, 0) I) as (x & Hx & E). rewrite combine_length in Hx. unfold zrange in Hx. rewrite zseq_length in Hx.
    rewrite combine_nth in E by (unfold zrange; rewrite zseq_length; lia). injection E as E1 E2. unfold zrange in E1. rewrite nth_zseq in E1 by lia. subst j. rewrite <- E2. f_equal. lia.
  Qed.

  Record dict_ok (now : Z) (m : store word) : Prop := { d_sound : sound m; d_len : len m = N * Z.of_nat n; d_cells : cells_all (good_word c now) m }.

  Lemma alike_ok ths v e : bytes k v -> textures k e -> forall now w, good_word c now w -> exists b, alike c ths v e w = Done b.
  Proof.
    intros Hv He now w (A & B & _). unfold alike. rewrite (proj1 (colour_gap_ok c v (colour w) Hk Hv A)). cbn [obind]. destruct (_ <=? _); [| eauto ].
    rewrite (proj1 (texture_gap_ok k e (tex w) Hk He B)). cbn [obind]. eauto.
  Qed.

  Lemma fetch_bytes m p : (forall i, 0 <= m i <= 255) -> in_image sz p -> exists v, SubsenseFrame.fetch (sub c) sz m (place sz p) = Some v /\ bytes k v.
  Proof.
    intros B Hp. rewrite (SubsensePixel.fetch_ok (sub c) sz) by (auto; cbn; lia). eexists. split; [ reflexivity |]. split.
    - rewrite map_length. unfold zrange. rewrite zseq_length. cbn. destruct Hk as [-> | ->]; reflexivity.
    - apply Forall_map, Forall_forall. intros x _. apply B.
  Qed.
  Lemma fetch_textures m p : (forall i, 0 <= m i < 2 ^ 16) -> in_image sz p -> exists v, SubsenseFrame.fetch (sub c) sz m (place sz p) = Some v /\ textures k v.
  Proof.
    intros B Hp. rewrite (SubsensePixel.fetch_ok (sub c) sz) by (auto; cbn; lia). eexists. split; [ reflexivity |]. split.
    - rewrite map_length. unfold zrange. rewrite zseq_length. cbn. destruct Hk as [-> | ->]; reflexivity.
    - apply Forall_map, Forall_forall. intros x _. apply B.
  Qed.

  (* the last images *)
  Record seen_ok (st : state) : Prop := { e_seen : forall i, 0 <= seen st i <= 255; e_ldesc : forall i, 0 <= ldesc st i < 2 ^ 16 }.

  Lemma resample_ok st base force ths p j r s : seen_ok st -> 0 <= frame (lev st) -> 0 <= base -> inner sz p -> 0 <= j < N -> let now := frame (lev st) in let b := j * Z.of_nat n in
    dict_ok now (fst s) -> packed (fst s) b n ->
    ok (fun s' => stepped (good_word c now) b n (fst s) (fst s') /\ (force = true \/ (forall x, dil st x = false) -> val (fst s') b <> None)) (resample c rnd sc st base force ths (place sz p) b r s).
  Proof.
    intros [S1 S2] Hf Hb Hp Hj now b [D1 D2 D3] Hpk. unfold resample. rewrite point_place by (apply inner_image; auto).
    destruct (sample_inner (rnd (snd s)) p sz (Hrnd _) Hp) as [Hq _]. set (q := getSamplePosition_7x7_std2 (rnd (snd s)) p 2 sz) in *. pose proof (inner_image _ _ Hq) as Iq.
    assert (Hfg : exists fg : bool, (if force then Done false else access (get (area sc) (dil st) (place sz q))) = Done fg /\ (force = true \/ (forall x, dil st x = false) -> fg = false)).
    { destruct force; [ exists false; split; auto |]. rewrite access_get by (apply place_range; exact Iq). eexists. split; [ reflexivity |]. intros [ H | H ]; [ discriminate | apply H ]. }
    destruct Hfg as (fg & Ef & Hfg). rewrite Ef. cbn [obind]. destruct fg.
    - cbn [ok fst snd]. split; [ apply stepped_refl; auto |]. intros H. discriminate (Hfg H).
    - destruct (fetch_bytes (seen st) q S1 Iq) as (v & Ev & Hv). rewrite Ev. cbn [access obind]. destruct (fetch_textures (ldesc st) q S2 Iq) as (e & Ee & He). rewrite Ee. cbn [access obind].
      set (fresh := {| colour := v; tex := e; first := frame (lev st); latest := frame (lev st); occ := base |}).
      assert (Hw : within (fst s) b n) by (apply region_in; auto).
      assert (Hfr : good_word c now fresh) by (unfold good_word, fresh, now; cbn; repeat split; try apply Hv; try apply He; lia).
      destruct (insert_ok (good_word c now) (fst s) (alike c ths v e) n b fresh D1 locals_pos (alike_ok ths v e Hv He now) Hw (cells_words _ _ _ _ D1 D3 Hw) Hpk)
        as (t & f & m1 & E1 & H1 & Hs1 & Ht & Hft & Hff).
      rewrite E1. cbn [obind fst snd]. pose proof (insert_cells _ _ _ _ _ _ _ E1 Hfr D3) as Hc1. cbn [snd] in Hc1.
      assert (Ht' : 0 <= t < len (fst s)) by (unfold within in Hw; lia). pose proof Hs1 as (_ & _ & Hl1).
      assert (Hmid : exists m2 x, (if f then obind (word_at m1 t) (fun w => put m1 t (again (frame (lev st)) 1 w)) else Done m1) = Done m2 /\ sound m2 /\ shape m1 m2 /\ cells_all (good_word c now) m2 /\
                       (forall u, 0 <= u < len (fst s) -> val m2 u = upd (val m1) t (Some x) u)).
      { destruct f.
        - destruct (Hft eq_refl) as [-> [a [Ha _]]]. rewrite (word_ok (fst s) t a D1 Ht' Ha). cbn [obind].
          destruct (put_ok (fst s) t (again (frame (lev st)) 1 a) D1 Ht' ltac:(congruence)) as (m2 & E2 & H2 & Hs2 & Hv2 & _). exists m2, (again (frame (lev st)) 1 a).
          split; [ exact E2 |]. split; [ exact H2 |]. split; [ exact Hs2 |]. split; [| exact Hv2 ]. apply (put_cells _ _ _ _ _ E2); [| exact D3 ]. apply good_again; [ lia |]. exact (cells_val _ _ _ _ D1 D3 Ht' Ha).
        - destruct (Hff eq_refl) as [_ Hv1]. exists m1, fresh. split; [ reflexivity |]. split; [ exact H1 |]. split; [ apply shape_refl |]. split; [ exact Hc1 |].
          intros u Hu. unfold upd. destruct (u =? t) eqn:E; [ apply Z.eqb_eq in E; subst u; rewrite Hv1 by exact Hu; apply upd_same | reflexivity ]. }
      destruct Hmid as (m2 & x & -> & H2 & Hs2 & Hc2 & Hv2). cbn [obind].
      assert (He3 : ok (fun m3 => stepped (good_word c now) b n (fst s) m3 /\ val m3 b <> None) (climb m2 (heavier (frame (lev st)) (woff (lev st))) (Z.to_nat (t - b)) b)).
      { apply (enter_ok (good_word c now) (fst s) m1 m2 _ n b t f x fresh); auto using locals_pos. intros ->. destruct (Hft eq_refl) as [-> [a [Ha _]]]. eauto. }
      apply ok_ex in He3. destruct He3 as (m3 & -> & Hst & Hh). cbn [obind ok fst snd]. auto.
  Qed.

  (* fading keeps the words where they are *)
  Lemma fade_ok frac now j x m : (0 <= frac <= 1)%Q -> 0 <= j < N -> (x < n)%nat -> let b := j * Z.of_nat n in dict_ok now m -> packed m b n -> ok (fun m' => stepped (good_word c now) b n m m') (fade frac b x m).
  Proof.
    intros Hq Hj Hx b [D1 D2 D3] Hpk. unfold fade. pose proof (region_in m j D2 Hj) as Hw. fold b in Hw. unfold within in Hw. assert (Ht : 0 <= b + Z.of_nat x < len m) by lia.
    rewrite peek_ok by auto. cbn [obind]. destruct (val m (b + Z.of_nat x)) as [w|] eqn:Ev; [| apply stepped_refl; auto ].
    pose proof (cells_val _ _ _ _ D1 D3 Ht Ev) as (G1 & G2 & G3 & G4 & G5).
    set (w' := {| colour := colour w; tex := tex w; first := first w; latest := latest w; occ := occ w - Qfloor (frac * inject_Z (occ w)) |}).
    destruct (put_ok m (b + Z.of_nat x) w' D1 Ht ltac:(congruence)) as (m2 & E2 & H2 & Hs2 & Hv2 & _). rewrite E2. cbn [ok].
    assert (Gw : good_word c now w').
    { unfold good_word, w'; cbn [colour tex first latest occ]. repeat split; try apply G1; try apply G2; try lia.
      assert (A : Qfloor (frac * inject_Z (occ w)) <= occ w); [| lia ]. rewrite <- (Qfloor_Z (occ w)) at 2. apply Qfloor_resp_le. assert (B : (0 <= inject_Z (occ w))%Q) by (change 0%Q with (inject_Z 0); rewrite <- Zle_Qle; exact G5). nra. }
    assert (Hsame : forall u, 0 <= u < len m -> (val m2 u = None <-> val m u = None)).
    { intros u Hu. rewrite Hv2 by exact Hu. unfold upd. destruct (u =? b + Z.of_nat x) eqn:E; [ apply Z.eqb_eq in E; subst u; rewrite Ev; split; discriminate | reflexivity ]. }
    split; auto.
    - exact (put_cells _ _ _ _ _ E2 Gw D3).
    - intros u Hu Hn. rewrite Hv2 by exact Hu. apply upd_other. lia.
    - intros u v Huv Hv. rewrite !Hsame by lia. now apply Hpk.
    - intros Hf u Hu. rewrite Hsame by lia. now apply Hf.
    - rewrite Hsame by (pose proof locals_pos; lia). auto.
  Qed.

  (* filling the places left *)
  Lemma invent_ok now ths j x s : 0 <= now -> 0 <= fst ths -> 0 <= j < N -> (0 < x < n)%nat -> let b := j * Z.of_nat n in dict_ok now (fst s) ->
    (forall t, b <= t < b + Z.of_nat x -> val (fst s) t <> None) ->
    ok (fun s' => dict_ok now (fst s') /\ shape (fst s) (fst s') /\ elsewhere (fst s) (fst s') b n /\ (full (fst s) b n -> full (fst s') b n) /\ (forall t, b <= t < b + Z.of_nat (S x) -> val (fst s') t <> None)) (invent c rnd now ths b x s).
  Proof.
    intros Hnow Hths Hj Hx b [D1 D2 D3] Hpre. unfold invent. pose proof (region_in (fst s) j D2 Hj) as Hw. fold b in Hw. unfold within in Hw. assert (Ht : 0 <= b + Z.of_nat x < len (fst s)) by lia.
    rewrite pointer_ok by exact Ht. cbn [obind]. destruct (slot (fst s) (b + Z.of_nat x)) as [q|] eqn:Eq.
    - cbn [ok]. split; [ now split |]. split; [ apply shape_refl |]. split; [ apply elsewhere_refl |]. split; [ auto |]. intros t Ht'. destruct (Z.eq_dec t (b + Z.of_nat x)) as [-> | Hne]; [| apply Hpre; lia ].
      unfold val. rewrite Eq. discriminate.
    - unfold remainder at 1. rewrite (proj2 (Z.eqb_neq (Z.of_nat x) 0)) by lia. cbn [obind]. pose proof (Z.mod_pos_bound (rnd (snd s)) (Z.of_nat x) ltac:(lia)) as Hr. set (r0 := rnd (snd s) mod Z.of_nat x) in *.
      destruct (val (fst s) (b + r0)) as [w|] eqn:Ew; [| exfalso; apply (Hpre (b + r0)); [ lia | exact Ew ] ]. assert (Hr0 : 0 <= b + r0 < len (fst s)) by lia.
      rewrite (word_ok _ _ w D1 Hr0 Ew). cbn [obind]. pose proof (cells_val _ _ _ _ D1 D3 Hr0 Ew) as (G1 & G2 & G3 & G4 & G5).
      assert (Hu : 0 <= (if ch c =? 1 then fst ths else fst ths / 3)) by (destruct (ch c =? 1); [ lia | apply Z.div_pos; lia ]).
      unfold remainder. rewrite (proj2 (Z.eqb_neq ((if ch c =? 1 then fst ths else fst ths / 3) + 1) 0)) by lia. cbn [obind].
      match goal with |- context [create (fst s) _ ?f] => set (fr := f) end.
      assert (Gf : good_word c now fr).
      { unfold good_word, fr; cbn [colour tex first latest occ]. split.
        - split; [ rewrite map_length; apply G1 |]. apply Forall_map, Forall_forall. intros y _. apply SubsenseRun.sat_range.
        - split; [ exact G2 |]. lia. }
      assert (Hnone : val (fst s) (b + Z.of_nat x) = None) by (unfold val; rewrite Eq; reflexivity).
      destruct (create_ok (fst s) (b + Z.of_nat x) fr D1 Ht Hnone) as (m' & E' & H' & Hs' & Hv'). rewrite E'. cbn [obind ok fst]. pose proof Hs' as (_ & _ & Hl').
      split; [ split; [ exact H' | congruence | exact (create_cells _ _ _ _ _ E' Gf D3) ] |]. split; [ exact Hs' |]. split; [| split ].
      + intros t Ht' Hn. rewrite Hv' by exact Ht'. apply upd_other. lia.
      + intros Hf t Ht'. rewrite Hv' by lia. unfold upd. destruct (t =? b + Z.of_nat x); [ discriminate | now apply Hf ].
      + intros t Ht'. rewrite Hv' by lia. unfold upd. destruct (t =? b + Z.of_nat x) eqn:E; [ discriminate |]. apply Z.eqb_neq in E. apply Hpre. lia.
  Qed.
  Lemma invents_ok now ths j : 0 <= now -> 0 <= fst ths -> 0 <= j < N -> let b := j * Z.of_nat n in forall l x s, (0 < x)%nat -> (x + l = n)%nat -> dict_ok now (fst s) ->
    (forall t, b <= t < b + Z.of_nat x -> val (fst s) t <> None) ->
    ok (fun s' => dict_ok now (fst s') /\ shape (fst s) (fst s') /\ elsewhere (fst s) (fst s') b n /\ full (fst s') b n) (each (invent c rnd now ths b) (seq x l) s).
  Proof.
    intros Hnow Hths Hj b. induction l as [|l IH]; intros x s Hx Hxl Hd Hpre.
    - cbn. split; [ exact Hd |]. split; [ apply shape_refl |]. split; [ apply elsewhere_refl |]. replace n with x by lia. exact Hpre.
    - cbn [seq each]. pose proof (invent_ok now ths j x s Hnow Hths Hj ltac:(lia) Hd Hpre) as H1. cbv zeta in H1. fold b in H1. apply ok_ex in H1. destruct H1 as (s1 & E1 & Hd1 & Hs1 & He1 & _ & Hp1).
      rewrite E1. cbn [obind]. eapply ok_mono; [ apply (IH (S x) s1); [ lia | lia | exact Hd1 | exact Hp1 ] |].
      intros s2 (A1 & A2 & A3 & A4). split; [ exact A1 |]. split; [ eapply shape_trans; eassumption |]. split; [ eapply elsewhere_trans; eassumption | exact A4 ].
  Qed.

  Lemma region_same (m m' : store word) j j' : len m = N * Z.of_nat n -> elsewhere m m' (j * Z.of_nat n) n -> 0 <= j' < N -> j' <> j ->
    forall t, j' * Z.of_nat n <= t < j' * Z.of_nat n + Z.of_nat n -> val m' t = val m t.
  Proof.
    intros L He Hj Hne t Ht. apply He; [ rewrite L; nia |]. intros H. pose proof locals_pos as Hn. destruct (Z_lt_le_dec j' j); nia.
  Qed.

  Lemma refresh_pixel_ok st base frac force j i s q : seen_ok st -> 0 <= frame (lev st) -> 0 <= base -> (0 <= frac <= 1)%Q -> In (j, i) (numbered sc) -> pixel_ok q (px st i) ->
    let now := frame (lev st) in let b := j * Z.of_nat n in
    dict_ok now (fst s) -> packed (fst s) b n -> (force = true \/ (forall x, dil st x = false) \/ full (fst s) b n) ->
    safe (4940 < q) (fun s' => dict_ok now (fst s') /\ shape (fst s) (fst s') /\ elsewhere (fst s) (fst s') b n /\ full (fst s') b n) (refresh_pixel c rnd sc st base frac force (j, i) s).
  Proof.
    intros Hs Hnow Hb Hq Hin Hpx now b Hd Hpk Hready. destruct (numbered_in j i Hin) as (Hj & Hi & _). destruct (sc_listed sc Hsc i Hi) as (p & Hp & ->). pose proof (inner_image _ _ Hp) as Ip.
    unfold refresh_pixel. cbn [fst snd]. fold b.
    assert (Hfg : exists fg : bool, (if force then Done false else access (get (area sc) (dil st) (place sz p))) = Done fg /\ (fg = true -> full (fst s) b n)).
    { destruct force; [ exists false; split; [ reflexivity | discriminate ] |]. rewrite access_get by (apply place_range; exact Ip). eexists. split; [ reflexivity |].
      intros H. destruct Hready as [ E | [ E | E ]]; [ discriminate | rewrite E in H; discriminate | exact E ]. }
    destruct Hfg as (fg & Ef & Hfg). rewrite Ef. cbn [obind]. destruct fg.
    - cbn [safe]. split; [ exact Hd |]. split; [ apply shape_refl |]. split; [ apply elsewhere_refl | exact (Hfg eq_refl) ].
    - eapply safe_bind; [ apply thresholds_ok; eassumption |]. intros ths [Hths _].
      set (I := fun m => dict_ok now m /\ stepped (good_word c now) b n (fst s) m).
      assert (I0 : I (fst s)) by (split; [ exact Hd | apply stepped_refl; auto; apply Hd ]).
      assert (Hfade : safe (4940 < q) I (if Qltb 0 frac then each (fade frac b) (seq 0 n) (fst s) else Done (fst s))).
      { destruct (Qltb 0 frac); [| exact I0 ]. apply safe_ok, ok_each; [| exact I0 ]. intros x m Hx [Hdm Hst]. apply in_seq in Hx.
        eapply ok_mono; [ apply (fade_ok frac now j x m); auto; [ lia | exact (t_packed _ _ _ _ _ Hst) ] |]. intros m' Hst'. split; [| exact (stepped_trans _ _ _ _ _ _ Hst Hst') ].
        destruct Hst' as [A1 (_ & _ & A2) A3 _ _ _ _]. split; auto. rewrite A2. apply Hdm. }
      eapply safe_bind; [ exact Hfade |]. intros m1 [Hd1 Hst1].
      set (J := fun (d : list nat) (s' : store word * nat) => I (fst s') /\ (d <> [] -> force = true \/ (forall x, dil st x = false) -> val (fst s') b <> None)).
      assert (Hres : safe (4940 < q) (J ([] ++ seq 0 98)) (each (resample c rnd sc st base force ths (place sz p) b) (seq 0 98) (m1, snd s))).
      { apply safe_each_pre; [| split; [ split; assumption | now intros ] ]. intros d r rest s' _ [[Hd' Hst'] _]. apply safe_ok.
        eapply ok_mono; [ apply (resample_ok st base force ths p j r s'); auto; exact (t_packed _ _ _ _ _ Hst') |]. fold now. fold b. intros s'' [Hst'' Hhd]. split; [| intros _; exact Hhd ]. split; [| exact (stepped_trans _ _ _ _ _ _ Hst' Hst'') ].
        destruct Hst'' as [A1 (_ & _ & A2) A3 _ _ _ _]. split; auto. rewrite A2. apply Hd'. }
      eapply safe_bind; [ exact Hres |]. intros s2 [[Hd2 Hst2] Hh2]. apply safe_ok.
      assert (Hhead : val (fst s2) b <> None).
      { destruct Hready as [ E | [ E | E ]]; [ apply Hh2; [ discriminate | now left ] | apply Hh2; [ discriminate | now right ] |]. apply (t_head _ _ _ _ _ Hst2). apply E. pose proof locals_pos. lia. }
      pose proof locals_pos as Hn.
      eapply ok_mono; [ apply (invents_ok now ths j Hnow Hths Hj (n - 1) 1 s2); [ lia | lia | exact Hd2 |] |].
      + intros t Ht. fold b in Ht. replace t with b by lia. exact Hhead.
      + fold b. intros s3 (A1 & A2 & A3 & A4). split; [ exact A1 |]. split; [ eapply shape_trans; [ exact (t_shape _ _ _ _ _ Hst2) | exact A2 ] |]. split; [| exact A4 ].
        eapply elsewhere_trans; [ exact (t_shape _ _ _ _ _ Hst2) | exact (t_else _ _ _ _ _ Hst2) | exact A3 ].
  Qed.

  Definition full_all (m : store word) : Prop := forall t, 0 <= t < len m -> val m t <> None.
  Definition ready (st : state) (force : bool) (m : store word) : Prop := full_all m \/ ((force = true \/ forall x, dil st x = false) /\ forall j, 0 <= j < N -> packed m (j * Z.of_nat n) n).

  Lemma words_refreshed st base frac force q : seen_ok st -> 0 <= frame (lev st) -> 0 <= base -> (0 <= frac <= 1)%Q -> (forall i, In i (pxs sc) -> pixel_ok q (px st i)) ->
    let now := frame (lev st) in forall s, dict_ok now (fst s) -> ready st force (fst s) ->
    safe (4940 < q) (fun s' => dict_ok now (fst s') /\ full_all (fst s')) (each (refresh_pixel c rnd sc st base frac force) (numbered sc) s).
  Proof.
    intros Hs Hnow Hb Hq Hpx now s Hd Hr. pose proof locals_pos as Hn.
    assert (Hreg : forall m : store word, len m = N * Z.of_nat n -> (forall j, 0 <= j < N -> full m (j * Z.of_nat n) n) -> full_all m).
    { intros m L H t Ht. rewrite L in Ht. apply (H (t / Z.of_nat n)).
      - split; [ apply Z.div_pos; lia |]. apply Z.div_lt_upper_bound; nia.
      - pose proof (Z.div_mod t (Z.of_nat n) ltac:(lia)). pose proof (Z.mod_pos_bound t (Z.of_nat n) ltac:(lia)). nia. }
    set (I := fun (d : list (Z * Z)) (s' : store word * nat) => dict_ok now (fst s') /\ (forall j, 0 <= j < N -> packed (fst s') (j * Z.of_nat n) n /\
                (force = true \/ (forall x, dil st x = false) \/ full (fst s') (j * Z.of_nat n) n) /\ (In j (map fst d) -> full (fst s') (j * Z.of_nat n) n))).
    assert (H : safe (4940 < q) (I ([] ++ numbered sc)) (each (refresh_pixel c rnd sc st base frac force) (numbered sc) s)).
    { apply safe_each_pre.
      - intros d [j i] r s' Ed [Hd' HI]. assert (Hin : In (j, i) (numbered sc)) by (cbn in Ed; rewrite Ed; apply in_elt). destruct (numbered_in j i Hin) as (Hj & Hi & _).
        destruct (HI j Hj) as (P1 & P2 & _). eapply safe_mono; [ apply (refresh_pixel_ok st base frac force j i s' q); auto |]. fold now. intros s'' (A1 & A2 & A3 & A4). split; [ exact A1 |].
        intros j' Hj'. destruct (Z.eq_dec j' j) as [-> | Hne].
        + split; [| split; [ right; right; exact A4 | intros _; exact A4 ] ]. intros t u Htu Hu Ht. exfalso. apply (A4 t); [ lia | exact Ht ].
        + destruct (HI j' Hj') as (Q1 & Q2 & Q3). pose proof (region_same (fst s') (fst s'') j j' (d_len _ _ Hd') A3 Hj' Hne) as Hsame. split; [| split ].
          * intros t u Htu Hu. rewrite !Hsame by lia. now apply Q1.
          * destruct Q2 as [ E | [ E | E ]]; [ now left | right; now left | right; right ]. intros t Ht. rewrite Hsame by exact Ht. now apply E.
          * intros Hjd t Ht. rewrite Hsame by exact Ht. apply Q3; [| exact Ht ]. rewrite map_app in Hjd. apply in_app_or in Hjd. destruct Hjd as [ Hjd | [ Hjd | [] ]]; [ exact Hjd |]. cbn in Hjd. congruence.
      - split; [ exact Hd |]. intros j Hj. pose proof (region_in (fst s) j (d_len _ _ Hd) Hj) as Hw. unfold WordDict.within in Hw. split; [| split; [| intros [] ]].
        + destruct Hr as [ F | [_ P] ]; [| now apply P ]. intros t u Htu Hu Ht. exfalso. apply (F t); [ lia | exact Ht ].
        + destruct Hr as [ F | [[ F | F ] _] ]; [ right; right | now left | right; now left ]. intros t Ht. apply F. lia. }
    eapply safe_mono; [ exact H |]. intros s' [A1 A2]. split; [ exact A1 |]. apply Hreg; [ apply A1 |]. intros j Hj. apply (A2 j Hj). cbn [app].
    assert (E : map fst (numbered sc) = zrange 0 N).
    { unfold numbered. apply map_fst_combine. unfold zrange. rewrite zseq_length. lia. }
    rewrite E. apply in_zrange. lia.
  Qed.

  (* ------------------------------------------------------------------ global words *)
  Definition good_gword (g : gword) : Prop := bytes k (gcol g) /\ 0 <= gbits g <= 48 /\ (0 <= gweight g)%Q /\ exists m, gmap g = Some m /\ forall a, (0 <= m a)%Q.
  Record glob_ok (g : store gword) : Prop := { g_sound : sound g; g_len : len g = Z.of_nat (globals c); g_cells : cells_all good_gword g }.
  Definition gfull (g : store gword) : Prop := forall t, 0 <= t < len g -> val g t <> None.

  Lemma weight_nonneg now off w : 0 <= off -> good_word c now w -> (0 <= weight now off w)%Q.
  Proof.
    intros Ho (_ & _ & A & B & C). unfold weight. assert (Hn : (0 <= inject_Z (occ w))%Q) by (change 0%Q with (inject_Z 0); rewrite <- Zle_Qle; exact C).
    assert (Hd : (0 <= inject_Z (latest w - first w + (now - latest w) * 2 + off))%Q) by (change 0%Q with (inject_Z 0); rewrite <- Zle_Qle; lia).
    unfold Qdiv. apply Qmult_le_0_compat; [ exact Hn |]. apply Qinv_le_0_compat. exact Hd.
  Qed.
  Lemma akin_ok ths v b g : bytes k v -> 0 <= b <= 48 -> good_gword g -> exists x, akin c ths v b g = Done x.
  Proof.
    intros Hv Hb (A & B & _). unfold akin. rewrite (proj1 (colour_gap_ok c (gcol g) v Hk A Hv)). cbn [obind]. destruct (_ <=? _); [| eauto ].
    rewrite L1dist_exact; [ cbn [access obind]; eauto | now left | left; unfold in_u; lia ].
  Qed.
  Lemma half_lt x w : 0 <= x -> x <= w - 2 -> 0 <= x / 2 < w / 2.
  Proof.
    intros H1 H2. pose proof (Z.div_mod x 2 ltac:(lia)). pose proof (Z.div_mod w 2 ltac:(lia)). pose proof (Z.mod_pos_bound x 2 ltac:(lia)). pose proof (Z.mod_pos_bound w 2 ltac:(lia)). lia.
  Qed.
  Lemma map_in p : inner sz p -> 0 <= map_place sc (place sz p) < map_size sc.
  Proof.
    intros Hp. unfold map_place, map_size. rewrite point_place by (apply inner_image; auto). destruct Hp as [Hx Hy].
    pose proof (half_lt (fst p) (fst sz) ltac:(lia) ltac:(lia)) as A. pose proof (half_lt (snd p) (snd sz) ltac:(lia) ltac:(lia)) as B.
    nia.
  Qed.
  Lemma map_at_ok g p : good_gword g -> inner sz p -> ok (fun y => 0 <= y)%Q (map_at sc g (place sz p)).
  Proof. intros (_ & _ & _ & m & Em & Hm) Hp. unfold map_at. rewrite Em, access_get by (apply map_in; exact Hp). apply Hm. Qed.
  Lemma credit_ok g p x : good_gword g -> inner sz p -> (0 <= x)%Q -> ok good_gword (credit sc g (place sz p) x).
  Proof.
    intros G Hp Hx. unfold credit. eapply ok_bind; [ apply map_at_ok; auto |]. intros y Hy. cbv beta in Hy. destruct G as (A & B & C & m & Em & Hm). rewrite Em.
    destruct (Qltb y x); cbn [ok].
    - split; [ exact A |]. split; [ exact B |]. cbn [gweight gmap]. split; [ rewrite Qred_correct; lra |]. eexists. split; [ reflexivity |]. intros a. unfold SubsenseFrame.set1. destruct (a =? _); [ rewrite Qred_correct; lra | apply Hm ].
    - split; [ exact A |]. split; [ exact B |]. split; [ exact C |]. eauto.
  Qed.

  Lemma regather_ok st m force incr j i g q : dict_ok (frame (lev st)) m -> full_all m -> 0 <= woff (lev st) -> In (j, i) (numbered sc) -> pixel_ok q (px st i) ->
    glob_ok g -> packed g 0 (globals c) ->
    safe (4940 < q) (fun g' => glob_ok g' /\ packed g' 0 (globals c)) (regather c sc st m force incr (j, i) g).
  Proof.
    intros Hd Hfull Hoff Hin Hpx [G1 G2 G3] Hpk. destruct (numbered_in j i Hin) as (Hj & Hi & _). destruct (sc_listed sc Hsc i Hi) as (p & Hp & ->). pose proof (inner_image _ _ Hp) as Ip.
    unfold regather. cbn [fst snd]. destruct (negb _); [ cbn [safe]; split; [ now split | exact Hpk ] |].
    assert (Hfg : exists fg : bool, (if force then Done false else access (get (area sc) (dil st) (place sz p))) = Done fg).
    { destruct force; [ eauto |]. rewrite access_get by (apply place_range; exact Ip). eauto. }
    destruct Hfg as (fg & Ef). rewrite Ef. cbn [obind]. destruct fg; [ cbn [safe]; split; [ now split | exact Hpk ] |].
    eapply safe_bind; [ apply thresholds_ok; eassumption |]. intros ths _. pose proof (region_in m j (d_len _ _ Hd) Hj) as Hw. unfold WordDict.within in Hw. pose proof locals_pos as Hn.
    assert (Ht : 0 <= j * Z.of_nat n < len m) by lia. destruct (val m (j * Z.of_nat n)) as [w|] eqn:Ew; [| exfalso; apply (Hfull _ Ht Ew) ].
    rewrite (word_ok _ _ w (d_sound _ _ Hd) Ht Ew). cbn [obind]. pose proof (cells_val _ _ _ _ (d_sound _ _ Hd) (d_cells _ _ Hd) Ht Ew) as Gw. pose proof Gw as (W1 & W2 & _).
    destruct (count_bits_ok k (tex w) Hk W2) as [Eb Hb]. rewrite Eb. cbn [obind].
    match goal with |- context [insert g _ _ _ ?f] => set (fresh := f) end.
    assert (Gf : good_gword fresh) by (unfold good_gword, fresh; cbn [gcol gbits gweight gmap]; split; [ exact W1 |]; split; [ exact Hb |]; split; [ apply Qle_refl |]; eexists; split; [ reflexivity |]; intros; apply Qle_refl).
    assert (Hwg : WordDict.within g 0 (globals c)) by (unfold WordDict.within; lia).
    destruct (insert_ok good_gword g (akin c ths (colour w) (ones_of (tex w))) (globals c) 0 fresh G1 Hglob ltac:(intros a Ha; apply akin_ok; auto) Hwg (cells_words _ _ _ _ G1 G3 Hwg) Hpk)
        as (t & f & g1 & E1 & H1 & Hs1 & Ht1 & Hft & Hff).
    rewrite E1. cbn [obind fst snd]. pose proof (insert_cells _ _ _ _ _ _ _ E1 Gf G3) as Hc1. cbn [snd] in Hc1. pose proof Hs1 as (_ & _ & Hl1).
    assert (Ht' : 0 <= t < len g) by lia.
    assert (Hx : exists x, val g1 t = Some x). { destruct f; [ destruct (Hft eq_refl) as [-> [a [Ha _]]]; eauto |]. destruct (Hff eq_refl) as [_ Hv]. exists fresh. rewrite Hv by exact Ht'. apply upd_same. }
    destruct Hx as (x & Hx). assert (Ht1' : 0 <= t < len g1) by (rewrite Hl1; exact Ht'). rewrite (word_ok g1 t x H1 Ht1' Hx). cbn [obind].
    pose proof (cells_val _ _ _ _ H1 Hc1 Ht1' Hx) as Gx. pose proof (credit_ok x p (weight (frame (lev st)) (woff (lev st)) w) Gx Hp (weight_nonneg _ _ _ Hoff Gw)) as Hcr. apply ok_ex in Hcr. destruct Hcr as (x' & -> & Gx'). cbn [obind].
    destruct (put_ok g1 t x' H1 Ht1' ltac:(congruence)) as (g2 & E2 & H2 & Hs2 & Hv2 & _). rewrite E2. cbn [obind].
    apply safe_ok. replace t with (t - 0) by lia. eapply ok_mono.
    - apply (enter_ok good_gword g g1 g2 weightier (globals c) 0 t f x' fresh); auto.
      + intros Ef'. destruct (Hft Ef') as [A [a [B _]]]. eauto.
      + exact (put_cells _ _ _ _ _ E2 Gx' Hc1).
      + intros u Hu. apply Hv2. rewrite Hl1. exact Hu.
    - intros g3 [[A1 (_ & _ & A2) A3 A4 A5 _ _] _]. split; [ split; [ exact A1 | congruence | exact A3 ] | exact A5 ].
  Qed.

  Lemma completed_ok : forall l x g, (x + l = globals c)%nat -> glob_ok g -> (forall t, 0 <= t < Z.of_nat x -> val g t <> None) -> ok (fun g' => glob_ok g' /\ gfull g') (each (complete c) (seq x l) g).
  Proof.
    induction l as [|l IH]; intros x g Hx Hg Hpre.
    - cbn. split; [ exact Hg |]. intros t Ht. rewrite (g_len _ Hg) in Ht. apply Hpre. lia.
    - cbn [seq each]. unfold complete at 1. destruct Hg as [G1 G2 G3]. assert (Ht : 0 <= Z.of_nat x < len g) by lia. rewrite pointer_ok by exact Ht. cbn [obind]. destruct (slot g (Z.of_nat x)) as [q|] eqn:Eq.
      + cbn [obind]. apply IH; [ lia | now split |]. intros t Ht'. destruct (Z.eq_dec t (Z.of_nat x)) as [-> | Hne]; [ unfold val; rewrite Eq; discriminate | apply Hpre; lia ].
      + match goal with |- context [create g _ ?f] => set (fr := f) end. assert (Hnone : val g (Z.of_nat x) = None) by (unfold val; rewrite Eq; reflexivity).
        destruct (create_ok g (Z.of_nat x) fr G1 Ht Hnone) as (g' & E' & H' & (_ & _ & Hl') & Hv'). rewrite E'. cbn [obind].
        assert (Gf : good_gword fr).
        { unfold good_gword, fr; cbn [gcol gbits gweight gmap]. split; [| split; [ lia |]; split; [ apply Qle_refl |]; eexists; split; [ reflexivity |]; intros; apply Qle_refl ]. split.
          - rewrite map_length. unfold zrange. rewrite zseq_length. destruct Hk as [-> | ->]; reflexivity.
          - apply Forall_map, Forall_forall. intros y _. lia. }
        apply IH; [ lia | split; [ exact H' | congruence | exact (create_cells _ _ _ _ _ E' Gf G3) ] |].
        intros t Ht'. rewrite Hv' by lia. unfold upd. destruct (t =? Z.of_nat x) eqn:E; [ discriminate |]. apply Z.eqb_neq in E. apply Hpre. lia.
  Qed.

  Lemma cell_ok g a : glob_ok g -> gfull g -> 0 <= a < Z.of_nat (globals c) -> deref g (block g, a) = Done (cells g a) /\ good_gword (cells g a).
  Proof.
    intros [G1 G2 G3] Hf Ha. destruct (deref_cell g a G1 ltac:(lia) Hf ltac:(lia)) as [E H]. split; [ exact E |]. now apply G3.
  Qed.
  Definition places (l : list Z) : Prop := Permutation l (zrange 0 (Z.of_nat (globals c))).
  Lemma places_in l a : places l -> In a l -> 0 <= a < Z.of_nat (globals c).
  Proof. intros P I. apply (Permutation_in _ P) in I. apply in_zrange in I. lia. Qed.
  Lemma sift_ok g p : glob_ok g -> gfull g -> inner sz p -> forall l top x, (forall a, In a l -> 0 <= a < Z.of_nat (globals c)) -> ok (fun r => Permutation r (top :: l)) (sift sc g (place sz p) top x l).
  Proof.
    intros Hg Hf Hp. induction l as [|a l IH]; intros top x Hl; cbn [sift]; [ apply Permutation_refl |].
    destruct (cell_ok g a Hg Hf (Hl a (or_introl eq_refl))) as [-> Ga]. cbn [obind]. eapply ok_bind; [ apply map_at_ok; eassumption |]. intros y _. destruct (Qltb x y).
    - eapply ok_bind; [ apply IH; intros b Hb; apply Hl; now right |]. intros r Hr. cbn [ok]. rewrite (perm_skip a Hr). apply perm_swap.
    - eapply ok_bind; [ apply IH; intros b Hb; apply Hl; now right |]. intros r Hr. cbn [ok]. now apply perm_skip.
  Qed.
  Lemma sorted_ok g o : glob_ok g -> gfull g -> (forall i, places (o i)) -> ok (fun o' => forall i, places (o' i)) (each (sort_pixel sc g) (pxs sc) o).
  Proof.
    intros Hg Hf Ho. apply ok_each; [| exact Ho ]. intros i o' Hi Ho'. destruct (sc_listed sc Hsc i Hi) as (p & Hp & ->). unfold sort_pixel.
    pose proof (Ho' (place sz p)) as P. destruct (o' (place sz p)) as [|a l] eqn:E.
    - exfalso. apply Permutation_length in P. cbn in P. unfold zrange in P. rewrite zseq_length in P. lia.
    - destruct (cell_ok g a Hg Hf (places_in _ _ P (or_introl eq_refl))) as [-> Ga]. cbn [obind]. eapply ok_bind; [ apply map_at_ok; eassumption |]. intros y _.
      eapply ok_bind; [ apply (sift_ok g p Hg Hf Hp); intros b Hb; apply (places_in _ _ P); now right |]. intros r Hr. cbn [ok]. intros i. unfold SubsenseFrame.set1. destruct (i =? _); [| apply Ho' ].
      unfold places. rewrite Hr. exact P.
  Qed.

  (* ------------------------------------------------------------------ refreshModel *)
  Record state_ok (q : Z) (st : state) : Prop := {
    i_frame : 0 <= frame (lev st); i_off : 0 <= woff (lev st); i_seen : seen_ok st; i_dict : dict_ok (frame (lev st)) (dict st); i_full : full_all (dict st);
    i_glob : glob_ok (glob st); i_gfull : gfull (glob st); i_order : forall i, places (order st i); i_px : forall i, In i (pxs sc) -> pixel_ok q (px st i) }.

  Definition same_rest (st st' : state) : Prop := illum st' = illum st /\ seen st' = seen st /\ ldesc st' = ldesc st /\ px st' = px st /\ dil st' = dil st /\ lev st' = lev st.
  Lemma refreshModel_ok st base frac force q : 0 <= frame (lev st) -> 0 <= woff (lev st) -> seen_ok st -> dict_ok (frame (lev st)) (dict st) -> ready st force (dict st) ->
    glob_ok (glob st) -> packed (glob st) 0 (globals c) -> (forall i, places (order st i)) -> (forall i, In i (pxs sc) -> pixel_ok q (px st i)) -> 0 <= base ->
    (~ (0 <= frac <= 1)%Q /\ refreshModel c rnd sc base frac force st = Refused) \/
    ((0 <= frac <= 1)%Q /\ safe (4940 < q) (fun st' => state_ok q st' /\ same_rest st st') (refreshModel c rnd sc base frac force st)).
  Proof.
    intros Hf Ho Hs Hd Hr Hg Hgp Hor Hpx Hb. unfold refreshModel. destruct (Qltb frac 0 || Qltb 1 frac) eqn:E.
    - left. split; [| reflexivity ]. apply orb_true_iff in E. destruct E as [ E | E ]; apply Proofs.Subsense.Qltb_true in E; lra.
    - right. apply orb_false_iff in E. destruct E as [E1 E2]. apply Proofs.Subsense.Qltb_false in E1, E2. split; [ lra |].
      eapply safe_bind; [ apply (words_refreshed st base frac force q); auto; lra |]. intros [m u] [Hd1 Hf1]. cbn [fst snd] in *.
      assert (Hpass : forall incr g, glob_ok g /\ packed g 0 (globals c) -> safe (4940 < q) (fun g' => glob_ok g' /\ packed g' 0 (globals c)) (each (regather c sc st m force incr) (numbered sc) g)).
      { intros incr g HG. apply safe_each; [| exact HG ]. intros [j i] g' Hin [A1 A2]. apply regather_ok; auto. apply Hpx. exact (proj1 (proj2 (numbered_in j i Hin))). }
      eapply safe_bind; [ apply Hpass; split; assumption |]. intros g1 HG1. eapply safe_bind; [ apply Hpass; exact HG1 |]. intros g2 [HG2 _].
      eapply safe_bind; [ apply safe_ok, (completed_ok (globals c) 0 g2 eq_refl HG2); intros t Ht; lia |]. intros g3 [HG3 HF3].
      eapply safe_bind; [ apply safe_ok, (sorted_ok g3 (order st) HG3 HF3 Hor) |]. intros o Hoo. cbn [safe]. split; [| now repeat split ].
      split; cbn [frame woff lev dict glob order px seen ldesc]; auto. split; apply Hs.
  Qed.
End Refresh.
