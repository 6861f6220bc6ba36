From Coq Require Import ZArith NArith QArith Qround Qminmax List Bool Lia Lqa Sorting.Permutation.
From Verif Require Import Lib.Grid Model.Bits Model.Distances Model.Sampling Model.Simd Model.Lbsp Model.RoiTable Model.Pbas Spec.Bits Spec.Simd Spec.Lbsp Proofs.Bits Proofs.Lbsp
  Proofs.Sampling Spec.RoiTable Proofs.RoiTable Spec.Distances Proofs.Distances Spec.Vibe.
From Verif Require Spec.Subsense Proofs.Subsense Spec.SubsenseFrame Proofs.SubsensePixel Proofs.SubsenseRun Proofs.LobsterRun.
From Verif Require Import Proofs.Vibe Proofs.Lobster.
From Verif Require Import Spec.Vibe Model.Lobster Spec.Lobster Model.WordDict Proofs.WordDict Model.Pawcs.
From Verif Require Model.SubsenseFrame.
From Verif Require Import Proofs.Pawcs.
Import ListNotations.
Open Scope Z_scope.

Section Frame.
  Context (c : config) (rnd : nat -> Z) (sc : scene) (Hrnd : forall k, 0 <= rnd k) (Hk : ch c = 1 \/ ch c = 3) (Hmost : (0 < most c)%nat) (Hglob : (0 < globals c)%nat) (Hminc : 0 <= minc c) (Hsc : scene_ok sc).
  Notation k := (ch c). Notation sz := (size sc). Notation n := (locals c). Notation N := (Z.of_nat (length (pxs sc))).
  Notation dict_ok := (dict_ok c sc). Notation good_gword := (good_gword c). Notation glob_ok := (glob_ok c). Notation places := (places c).

  (* ------------------------------------------------------------------ the look at a pixel *)
  Definition texel (lut : Z -> Z) (img : Z -> Z) (p : Z * Z) : list Z := map (SubsensePixel.tex (sub c) sz lut img p) (zrange 0 k).
  Record glance_ok (lut : Z -> Z) (img : Z -> Z) (p : Z * Z) (s : glance) : Prop := {
    s_cur : cur s = map (value k sz img p) (zrange 0 k); s_around : around s = map (Lobster.around k sz img p) (zrange 0 k); s_desc : desc s = texel lut img p;
    s_bits : bits s = ones_of (desc s) /\ 0 <= bits s <= 48; s_incr : 0 <= incr s; s_rate : 1 <= rate s < 2 ^ 64 /\ rate s <> 2 ^ 63; s_ths : 0 <= fst (ths s) /\ 0 <= snd (ths s) }.

  Lemma map_bytes (f : Z -> Z) : (forall x, 0 <= f x <= 255) -> bytes k (map f (zrange 0 k)).
  Proof.
    intros H. split; [ rewrite map_length; unfold zrange; rewrite zseq_length; destruct Hk as [-> | ->]; reflexivity |]. apply Forall_map, Forall_forall. intros x _. apply H.
  Qed.
  Lemma map_textures (f : Z -> Z) : (forall x, 0 <= f x < 2 ^ 16) -> textures k (map f (zrange 0 k)).
  Proof.
    intros H. split; [ rewrite map_length; unfold zrange; rewrite zseq_length; destruct Hk as [-> | ->]; reflexivity |]. apply Forall_map, Forall_forall. intros x _. apply H.
  Qed.
  Lemma cur_bytes lut img p s : byte_image img -> glance_ok lut img p s -> bytes k (cur s).
  Proof. intros B H. rewrite (s_cur _ _ _ _ H). apply map_bytes. intros x. apply B. Qed.
  Lemma texel_textures lut img p : byte_image img -> textures k (texel lut img p).
  Proof. intros B. apply map_textures. intros x. apply (SubsensePixel.tex_ok (sub c) sz ltac:(cbn; lia) lut img p x B). Qed.
  Lemma desc_textures lut img p s : byte_image img -> glance_ok lut img p s -> textures k (desc s).
  Proof. intros B H. rewrite (s_desc _ _ _ _ H). apply texel_textures. exact B. Qed.

  Definition ov_ok (ov : Z) : Prop := ov < 2 ^ 64 /\ ov <> 2 ^ 63.
  Lemma rate_of_ok ov f t : ov_ok ov -> (1 <= t <= 256)%Q -> 1 <= rate_of ov f t < 2 ^ 64 /\ rate_of ov f t <> 2 ^ 63.
  Proof.
    intros [O1 O2] [T1 T2]. unfold rate_of. destruct (Z.ltb_spec 0 ov) as [Hov|Hov]; [ lia |].
    assert (A : Qceiling t <= 256) by (change 256 with (Qceiling 256); apply Qceiling_resp_le; exact T2). assert (B : 1 <= Qceiling t) by (change 1 with (Qceiling 1); apply Qceiling_resp_le; exact T1).
    assert (A' : Qceiling (t + 1) <= 257) by (change 257 with (Qceiling 257); apply Qceiling_resp_le; lra). assert (B' : 2 <= Qceiling (t + 1)) by (change 2 with (Qceiling 2); apply Qceiling_resp_le; lra).
    destruct f; [| lia ]. assert (1 <= Qceiling (t + 1) / 2) by (apply Z.div_le_lower_bound; lia). assert (Qceiling (t + 1) / 2 <= 200) by (apply Z.div_le_upper_bound; lia). lia.
  Qed.

  Lemma look_ok q ov img st j p : byte_image img -> ov_ok ov -> 0 <= cool (lev st) -> dict_ok (frame (lev st)) (dict st) -> full_all (dict st) -> inner sz p -> 0 <= j < N -> pixel_ok q (px st (place sz p)) ->
    safe (4940 < q) (fun s => glance_ok (lut (lev st)) img p s /\ thresholds c (px st (place sz p)) = Done (ths s) /\ border s = (roi sc (place sz p) <? 255) /\ boot s = (frame (lev st) <=? 500) /\
      flat s = (bits s <? (if k =? 1 then 2 else 4)) /\ rate s = rate_of ov (flat s) (Subsense.rate (px st (place sz p))) /\ incr s = (1 + cool (lev st)) * (if flat s || boot s then 2 else 1) /\
      exists w, val (dict st) (j * Z.of_nat n) = Some w /\ goal s = (weight (frame (lev st)) (woff (lev st)) w / (Subsense.radius (px st (place sz p)) * 2))%Q)
      (look c ov sc img st (j * Z.of_nat n) (place sz p)).
  Proof.
    intros B Hov Hcool [D1 D2 D3] Hf Hp Hj Hpx. unfold look. rewrite (SubsensePixel.describe_ok (sub c) rnd sz Hrnd ltac:(cbn; lia) Hk (lut (lev st)) img p B Hp). cbn [access obind fst snd].
    change (SubsenseFrame.ch (sub c)) with k. fold (texel (lut (lev st)) img p).
    pose proof (region_in c sc Hmost Hglob (dict st) j D2 Hj) as Hw. unfold WordDict.within in Hw. pose proof (locals_pos c Hmost Hglob) as Hn. assert (Ht : 0 <= j * Z.of_nat n < len (dict st)) by lia.
    destruct (val (dict st) (j * Z.of_nat n)) as [w|] eqn:Ew; [| exfalso; apply (Hf _ Ht Ew) ]. rewrite (word_ok _ _ w D1 Ht Ew). cbn [obind].
    rewrite access_get by (apply place_range, inner_image; exact Hp). cbn [obind].
    destruct (count_bits_ok k (texel (lut (lev st)) img p) Hk (texel_textures _ img p B)) as [Eb Hb]. rewrite Eb. cbn [obind].
    pose proof (thresholds_ok c q _ Hpx Hminc) as Hth. destruct (thresholds c (px st (place sz p))) as [t| | |f] eqn:Et; cbn [safe obind] in *; try contradiction; [| exact Hth ].
    split; [| split; [ reflexivity |]; split; [ reflexivity |]; split; [ reflexivity |]; split; [ reflexivity |]; split; [ reflexivity |]; split; [ reflexivity |]; exists w; split; reflexivity ].
    split; cbn [cur around desc bits incr rate ths]; auto.
    - destruct (_ || _); lia.
    - apply rate_of_ok; [ exact Hov | apply Hpx ].
  Qed.

  (* ------------------------------------------------------------------ a word *)
  Definition inter_of (lut : Z -> Z) (img : Z -> Z) (p : Z * Z) (v : list Z) : list Z :=
    map (fun x => match texture (SubsenseFrame.low (sub c) lut) (fst x) (snd x) with Some e => e | None => 0 end) (combine (map (Lobster.around k sz img p) (zrange 0 k)) v).
  Lemma inter_ok lut img p v : byte_image img -> bytes k v ->
    all (map (fun x => texture (SubsenseFrame.low (sub c) lut) (fst x) (snd x)) (combine (map (Lobster.around k sz img p) (zrange 0 k)) v)) = Some (inter_of lut img p v) /\ textures k (inter_of lut img p v).
  Proof.
    intros B [L F].
    assert (H : forall x, In x (combine (map (Lobster.around k sz img p) (zrange 0 k)) v) -> exists e, texture (SubsenseFrame.low (sub c) lut) (fst x) (snd x) = Some e /\ 0 <= e < 2 ^ 16).
    { intros [a b] I. pose proof (in_combine_l _ _ _ _ I) as I1. pose proof (in_combine_r _ _ _ _ I) as I2. apply in_map_iff in I1. destruct I1 as (x & <- & _). rewrite Forall_forall in F. specialize (F b I2). cbn [fst snd].
      destruct (texture_around (SubsenseFrame.low (sub c) lut) sz ltac:(cbn; lia) img p x b B F) as (e & E & D). exists e. split; [ exact E | apply D ]. }
    unfold inter_of. split.
    - apply all_map. intros x I. destruct (H x I) as (e & -> & _). reflexivity.
    - split.
      + rewrite map_length, combine_length, map_length. unfold zrange. rewrite zseq_length. destruct Hk as [E | E]; rewrite E in *; lia.
      + apply Forall_map, Forall_forall. intros x I. destruct (H x I) as (e & -> & He). exact He.
  Qed.
  Definition colour_to (s : glance) (w : word) : Z := gap_of k (cur s) (colour w).
  Definition intra_to (s : glance) (w : word) : Z := Z.of_N (differing_arr 16 (map Z.to_N (desc s)) (map Z.to_N (tex w))).
  Definition inter_to (lut : Z -> Z) (img : Z -> Z) (p : Z * Z) (w : word) : Z := Z.of_N (differing_arr 16 (map Z.to_N (inter_of lut img p (colour w))) (map Z.to_N (tex w))).
  Definition texture_to (lut : Z -> Z) (img : Z -> Z) (p : Z * Z) (s : glance) (w : word) : Z := (intra_to s w + inter_to lut img p w) / 2.
  Lemma gaps_ok now lut img p s w : byte_image img -> glance_ok lut img p s -> good_word c now w ->
    gaps c lut s w = Done (colour_to s w, sum_abs_diff (cur s) (colour w) mod 256, intra_to s w, texture_to lut img p s w) /\
    0 <= colour_to s w < 2 ^ 13 /\ 0 <= texture_to lut img p s w <= 16 * k.
  Proof.
    intros B G (W1 & W2 & _). pose proof (cur_bytes _ _ _ _ B G) as C1. pose proof (desc_textures _ _ _ _ B G) as C2. unfold gaps.
    rewrite (plain_gap_ok k) by auto. cbn [obind]. destruct (colour_gap_ok c (cur s) (colour w) Hk C1 W1) as [E1 R1]. rewrite E1. cbn [obind].
    destruct (texture_gap_ok k (desc s) (tex w) Hk C2 W2) as [E2 R2]. rewrite E2. cbn [obind].
    rewrite (s_around _ _ _ _ G). destruct (inter_ok lut img p (colour w) B W1) as [E3 R3]. rewrite E3. cbn [access obind].
    destruct (texture_gap_ok k _ (tex w) Hk R3 W2) as [E4 R4]. rewrite E4. cbn [obind]. split; [ reflexivity |]. split; [ exact R1 |].
    unfold texture_to, intra_to, inter_to. split; [ apply Z.div_pos; lia | apply Z.div_le_upper_bound; lia ].
  Qed.

  Definition matching (lut : Z -> Z) (img : Z -> Z) (p : Z * Z) (s : glance) (w : word) : bool := (texture_to lut img p s w <=? snd (ths s)) && (colour_to s w <=? fst (ths s)).
  (* what a comparison may do to a word *)
  Record renewed (lut : Z -> Z) (img : Z -> Z) (p : Z * Z) (s : glance) (now : Z) (w w' : word) : Prop := {
    r_first : first w' = first w;
    r_look : (colour w' = colour w /\ tex w' = tex w) \/ (colour w' = cur s /\ tex w' = desc s /\ colour_to s w <= fst (ths s) /\ intra_to s w <= snd (ths s) / 2);
    r_count : (latest w' = latest w /\ occ w' = occ w) \/ (matching lut img p s w = true /\ latest w' = now /\ (occ w' = occ w \/ occ w' = occ w + incr s)) }.
  Lemma renewed_refl lut img p s now w : renewed lut img p s now w w. Proof. split; auto. Qed.
  Lemma renewed_good lut img p s now w w' : byte_image img -> glance_ok lut img p s -> good_word c now w -> renewed lut img p s now w w' -> good_word c now w'.
  Proof.
    intros B G (W1 & W2 & W3 & W4 & W5) [R1 R2 R3]. pose proof (cur_bytes _ _ _ _ B G). pose proof (desc_textures _ _ _ _ B G). pose proof (s_incr _ _ _ _ G). unfold good_word. split; [| split ].
    - destruct R2 as [[-> _] | (-> & _)]; auto.
    - destruct R2 as [[_ ->] | (_ & -> & _)]; auto.
    - rewrite R1. destruct R3 as [[-> ->] | (_ & -> & [ -> | -> ])]; lia.
  Qed.
  Lemma lottery_ok r x : x <> 0 -> lottery r x = Done (r mod x =? 0).
  Proof. intros H. unfold lottery. now rewrite (proj2 (Z.eqb_neq x 0) H). Qed.
  Lemma lit_ok p ill : inner sz p -> exists m, lit sc (place sz p) ill = Done m.
  Proof.
    intros Hp. unfold lit. assert (A : 0 <= place sz p - 1 < area sc /\ 0 <= place sz p + 1 < area sc).
    { unfold place, area. destruct Hp. split; nia. }
    rewrite !access_get by apply A. cbn [obind]. eauto.
  Qed.
  Lemma compare_word_ok img st p s ill u w : byte_image img -> glance_ok (lut (lev st)) img p s -> inner sz p -> good_word c (frame (lev st)) w ->
    ok (fun r => let '(w', _, _, hit) := r in renewed (lut (lev st)) img p s (frame (lev st)) w w' /\
      hit = (if matching (lut (lev st)) img p s w then Some (colour_to s w, texture_to (lut (lev st)) img p s w) else None) /\ (matching (lut (lev st)) img p s w = true -> latest w' = frame (lev st)))
      (compare_word c rnd sc st s (place sz p) ill u w).
  Proof.
    intros B G Hp W. unfold compare_word. destruct (gaps_ok _ _ _ _ _ _ B G W) as (E & _). rewrite E. cbn [obind]. clear E.
    set (el := _ && (colour_to s w <=? fst (ths s)) && _ && _).
    assert (Hel : el = true -> colour_to s w <= fst (ths s) /\ intra_to s w <= snd (ths s) / 2).
    { unfold el. rewrite !andb_true_iff, !Z.leb_le. tauto. }
    destruct (s_rate _ _ _ _ G) as [[R1 R2] R3].
    assert (Hw : exists won : bool, (if el then lottery (rnd u) (if ill (place sz p) =? 0 then rate s else rate s / 2 + 1) else Done false) = Done won /\ (won = true -> el = true)).
    { destruct el; [| eexists; split; [ reflexivity | discriminate ] ]. rewrite lottery_ok; [ eexists; split; [ reflexivity | auto ] |]. destruct (_ =? _); [ lia |]. pose proof (Z.div_pos (rate s) 2). lia. }
    destruct Hw as (won & -> & Hwon). cbn [obind].
    assert (Hi : exists ill', (if won then lit sc (place sz p) ill else Done ill) = Done ill') by (destruct won; [ apply lit_ok; exact Hp | eauto ]). destruct Hi as (ill' & ->). cbn [obind].
    set (w1 := if won then _ else w).
    assert (Hr : first w1 = first w /\ latest w1 = latest w /\ occ w1 = occ w /\ ((colour w1 = colour w /\ tex w1 = tex w) \/ (colour w1 = cur s /\ tex w1 = desc s /\ colour_to s w <= fst (ths s) /\ intra_to s w <= snd (ths s) / 2))).
    { unfold w1. destruct won; cbn; [ do 3 (split; [ reflexivity |]); right; split; [ reflexivity |]; split; [ reflexivity | apply Hel, Hwon; reflexivity ] | do 3 (split; [ reflexivity |]); left; split; reflexivity ]. }
    destruct Hr as (Q1 & Q2 & Q3 & Q4).
    fold (matching (lut (lev st)) img p s w). destruct (matching (lut (lev st)) img p s w) eqn:Em; cbn [ok].
    - split; [| split; [ reflexivity | auto ] ]. split.
      + cbn. exact Q1.
      + exact Q4.
      + right. split; [ exact Em |]. cbn. split; [ reflexivity |]. rewrite Q3. destruct ((negb (Subsense.last_final (px st (place sz p))) || moving (lev st)) && Qltb (weight (frame (lev st)) (woff (lev st)) w) 1); [ right; reflexivity | left; lia ].
    - split; [| split; [ reflexivity | discriminate ] ]. split; auto.
  Qed.

  (* ------------------------------------------------------------------ the scan of the words *)
  Definition sum (f : word -> Q) (l : list word) : Q := fold_right (fun w x => f w + x)%Q 0%Q l.
  Lemma sum_app f l l' : (sum f (l ++ l') == sum f l + sum f l')%Q.
  Proof. induction l as [|a l IH]; [ change (sum f l' == 0 + sum f l')%Q; ring |]. change (f a + sum f (l ++ l') == f a + sum f l + sum f l')%Q. rewrite IH. ring. Qed.
  Definition weighed (st : state) (img : Z -> Z) (p : Z * Z) (s : glance) (l : list word) : Q :=
    sum (fun w => if matching (lut (lev st)) img p s w then weight (frame (lev st)) (woff (lev st)) w else 0%Q) l.
  Definition words_at (m : store word) (b : Z) (ws : list word) : Prop := forall x w, nth_error ws x = Some w -> val m (b + Z.of_nat x) = Some w.

  (* pairs of words before and after, in the order they have now *)
  Record scanned (st : state) (img : Z -> Z) (p : Z * Z) (s : glance) (b : Z) (m0 : store word) (ws : list word) (prs : list (word * word)) (z : sweep) : Prop := {
    z_dict : dict_ok (frame (lev st)) (sdict z); z_full : full_all (sdict z); z_shape : shape m0 (sdict z);
    z_perm : Permutation (map fst prs) ws; z_now : words_at (sdict z) b (map snd prs); z_else : elsewhere m0 (sdict z) b (length ws);
    z_pairs : Forall (fun x => renewed (lut (lev st)) img p s (frame (lev st)) (fst x) (snd x)) prs;
    z_low : (prev z = None /\ prs = []) \/ (exists pr x, prs = pr ++ [x] /\ prev z = Some (weight (frame (lev st)) (woff (lev st)) (fst x)) /\
              Forall (fun y => weight (frame (lev st)) (woff (lev st)) (fst x) <= weight (frame (lev st)) (woff (lev st)) (fst y))%Q pr);
    z_found : (0 <= found z)%Q /\ (found z <= weighed st img p s ws)%Q /\ ((found z < goal s)%Q -> (found z == weighed st img p s ws)%Q);
    z_lows : 0 <= lowc z <= 255 * k /\ 0 <= lowd z <= 16 * k }.

  Lemma words_app (m : store word) b l w : words_at m b l -> val m (b + Z.of_nat (length l)) = Some w -> words_at m b (l ++ [w]).
  Proof.
    intros H Hw x a E. destruct (Nat.lt_ge_cases x (length l)) as [L|L]; [ rewrite nth_error_app1 in E by exact L; now apply H |].
    rewrite nth_error_app2 in E by exact L. destruct (x - length l)%nat as [|y] eqn:Ey; [| destruct y; discriminate ]. injection E as <-. replace x with (length l) by lia. exact Hw.
  Qed.
  Lemma words_prefix (m : store word) b l l' : words_at m b (l ++ l') -> words_at m b l.
  Proof. intros H x a E. apply H. rewrite nth_error_app1; [ exact E |]. apply nth_error_Some. congruence. Qed.
  Lemma words_frame (m m' : store word) b l : words_at m b l -> (forall t, b <= t < b + Z.of_nat (length l) -> val m' t = val m t) -> words_at m' b l.
  Proof. intros H E x a Ex. rewrite E; [ now apply H |]. assert (x < length l)%nat by (apply nth_error_Some; congruence). lia. Qed.
  Lemma qltb_cases a b : (Qltb a b = true /\ a < b)%Q \/ (Qltb a b = false /\ b <= a)%Q.
  Proof. destruct (Qltb a b) eqn:E; [ left | right ]; (split; [ reflexivity |]); [ now apply Subsense.Qltb_true | now apply Subsense.Qltb_false ]. Qed.

  Lemma scan_word_ok img st p s j x m0 ws prs z w : byte_image img -> glance_ok (lut (lev st)) img p s -> inner sz p -> 0 <= woff (lev st) -> 0 <= j < N -> (x < n)%nat ->
    let b := j * Z.of_nat n in length ws = x -> len m0 = N * Z.of_nat n -> val m0 (b + Z.of_nat x) = Some w -> scanned st img p s b m0 ws prs z ->
    ok (fun z' => exists prs', scanned st img p s b m0 (ws ++ [w]) prs' z') (scan_word c rnd sc st s (place sz p) b x z).
  Proof.
    intros B G Hp Ho Hj Hx b Lw L0 Ew [[D1 D2 D3] F Sh Pm Nw El Pr Lo Fo Ls].
    pose proof (region_in c sc Hmost Hglob (sdict z) j D2 Hj) as Hr. unfold WordDict.within in Hr. fold b in Hr. assert (Ht : 0 <= b + Z.of_nat x < len (sdict z)) by lia.
    assert (Ew' : val (sdict z) (b + Z.of_nat x) = Some w) by (rewrite <- Ew; apply El; [ destruct Sh as (_ & _ & E); lia | lia ]).
    assert (Lp : length prs = x) by (rewrite <- Lw, <- (Permutation_length Pm), map_length; reflexivity).
    unfold scan_word. rewrite (word_ok _ _ w D1 Ht Ew'). cbn [obind].
    assert (W : good_word c (frame (lev st)) w) by (eapply cells_val; eauto).
    pose proof (weight_nonneg c Hmost Hglob (frame (lev st)) (woff (lev st)) w Ho W) as Wn.
    set (now := frame (lev st)) in *. set (off := woff (lev st)) in *.
    (* the comparison *)
    apply (ok_bind (fun z1 => exists w1, renewed (lut (lev st)) img p s now w w1 /\ dict_ok now (sdict z1) /\ full_all (sdict z1) /\ shape (sdict z) (sdict z1) /\
      (forall t, 0 <= t < len (sdict z) -> val (sdict z1) t = upd (val (sdict z)) (b + Z.of_nat x) (Some w1) t) /\ prev z1 = prev z /\
      (0 <= found z1)%Q /\ (found z1 <= weighed st img p s (ws ++ [w]))%Q /\ ((found z1 < goal s)%Q -> (found z1 == weighed st img p s (ws ++ [w]))%Q) /\ 0 <= lowc z1 <= 255 * k /\ 0 <= lowd z1 <= 16 * k)).
    { assert (Wa : (weighed st img p s (ws ++ [w]) == weighed st img p s ws + (if matching (lut (lev st)) img p s w then weight now off w else 0))%Q).
      { unfold weighed. rewrite sum_app. unfold sum at 2. cbn [fold_right]. fold now off. ring. }
      destruct Fo as (F1 & F2 & F3). destruct (qltb_cases (found z) (goal s)) as [[-> Hlt] | [-> Hge]].
      - eapply ok_bind; [ apply (compare_word_ok img st p s (sillum z) (sused z) w B G Hp W) |]. intros [[[w1 ill] u] hit] (R & Eh & _). cbv beta.
        destruct (put_ok (sdict z) (b + Z.of_nat x) w1 D1 Ht ltac:(congruence)) as (m1 & Ep & S1 & Sh1 & V1 & Nx). rewrite Ep. cbn [obind].
        assert (Dm : dict_ok now m1). { split; [ exact S1 | destruct Sh1 as (_ & _ & E); lia |]. eapply put_cells; [ exact Ep | eapply renewed_good; eauto | exact D3 ]. }
        assert (Fm : full_all m1). { intros t Htt. destruct Sh1 as (_ & _ & E). rewrite V1 by lia. unfold upd. destruct (t =? _); [ discriminate | apply F; lia ]. }
        destruct (gaps_ok now (lut (lev st)) img p s w B G W) as (_ & Rc & Rd).
        destruct (matching (lut (lev st)) img p s w) eqn:Em; subst hit; cbn [ok]; exists w1; cbn [sdict prev found lowc lowd]; (split; [ exact R |]); (split; [ exact Dm |]); (split; [ exact Fm |]); (split; [ exact Sh1 |]); (split; [ exact V1 |]); (split; [ reflexivity |]).
        + rewrite !Qred_correct. specialize (F3 Hlt). split; [ lra |]. split; [ rewrite Wa; lra |]. split; [ intros _; rewrite Wa; lra |]. lia.
        + specialize (F3 Hlt). split; [ exact F1 |]. split; [ rewrite Wa; lra |]. split; [ intros _; rewrite Wa; lra |]. exact Ls.
      - cbn [ok]. exists w. split; [ apply renewed_refl |]. split; [ now split |]. split; [ exact F |]. split; [ apply shape_refl |].
        split; [ intros t _; unfold upd; destruct (Z.eqb_spec t (b + Z.of_nat x)) as [-> | _]; auto |]. split; [ reflexivity |]. split; [ exact F1 |].
        split; [ rewrite Wa; destruct (matching _ _ _ _ _); lra |]. split; [ intros; lra | exact Ls ]. }
    intros z1 (w1 & R & Dm & Fm & Sh1 & V1 & Ev & F1 & F2 & F3 & Ls1). rewrite Ev.
    assert (Sh01 : shape m0 (sdict z1)) by (eapply shape_trans; eauto).
    assert (Nw1 : words_at (sdict z1) b (map snd (prs ++ [(w, w1)]))).
    { rewrite map_app. apply words_app.
      - eapply words_frame; [ exact Nw |]. intros t Htt. rewrite map_length, Lp in Htt. rewrite V1 by lia. unfold upd. now rewrite (proj2 (Z.eqb_neq t _)) by lia.
      - rewrite map_length, Lp, V1 by lia. unfold upd. now rewrite Z.eqb_refl. }
    assert (El1 : elsewhere m0 (sdict z1) b (length (ws ++ [w]))).
    { intros t H1 H2. rewrite app_length in H2. cbn in H2. destruct Sh as (_ & _ & Es). rewrite V1 by lia. unfold upd. rewrite (proj2 (Z.eqb_neq t _)) by lia. apply El; [ exact H1 | lia ]. }
    assert (Pr1 : Forall (fun y => renewed (lut (lev st)) img p s now (fst y) (snd y)) (prs ++ [(w, w1)])) by (apply Forall_app; split; [ exact Pr | constructor; [ exact R | constructor ] ]).
    assert (Pm1 : Permutation (map fst (prs ++ [(w, w1)])) (ws ++ [w])) by (rewrite map_app; apply Permutation_app; [ exact Pm | apply Permutation_refl ]).
    assert (Keep : (match prev z with None => false | Some y => Qltb y (weight now off w) end) = false -> 
      ok (fun z' => exists prs', scanned st img p s b m0 (ws ++ [w]) prs' z') (Done {| sdict := sdict z1; sillum := sillum z1; sused := sused z1; found := found z1; prev := Some (weight now off w); lowc := lowc z1; lowd := lowd z1 |})).
    { intros Hno. exists (prs ++ [(w, w1)]). split; cbn [sdict found prev lowc lowd]; auto. right. exists prs, (w, w1). split; [ reflexivity |]. split; [ reflexivity |]. cbn [fst]. fold now off.
      destruct Lo as [[_ ->] | (pr & e & -> & Ep & Hl)]; [ constructor |]. fold now off in Ep, Hl. rewrite Ep in Hno. apply Subsense.Qltb_false in Hno.
      apply Forall_app. split; [| constructor; [ exact Hno | constructor ] ]. eapply Forall_impl; [| exact Hl ]. intros y Hy. cbv beta in Hy. lra. }
    destruct Lo as [[Ep Ers] | (pr & e & Ers & Ep & Hl)].
    { rewrite Ep in *. apply Keep. reflexivity. }
    fold now off in Ep, Hl. rewrite Ep in *. destruct (qltb_cases (weight now off (fst e)) (weight now off w)) as [[Eq Hlt] | [Eq Hge]]; rewrite Eq in *; [| apply Keep; reflexivity ]. clear Keep.
    subst prs. rewrite app_length in Lp. cbn in Lp.
    assert (Hlen : len (sdict z1) = len (sdict z)) by apply Sh1.
    destruct (swap_ok (sdict z1) (b + Z.of_nat x) (d_sound _ _ _ _ Dm) ltac:(lia) ltac:(lia)) as (m2 & E2 & S2 & Sh2 & V2). rewrite E2. cbn [obind ok].
    exists (pr ++ [(w, w1); e]).
    assert (Ve : val (sdict z1) (b + Z.of_nat x - 1) = Some (snd e)).
    { replace (b + Z.of_nat x - 1) with (b + Z.of_nat (length pr)) by lia. apply Nw1. rewrite !map_app, <- app_assoc, nth_error_app2 by (rewrite map_length; lia). rewrite map_length, Nat.sub_diag. reflexivity. }
    assert (Vw : val (sdict z1) (b + Z.of_nat x) = Some w1) by (rewrite V1 by lia; unfold upd; now rewrite Z.eqb_refl).
    split; cbn [sdict found prev lowc lowd].
    - split; [ exact S2 | destruct Sh2 as (_ & _ & E); rewrite E, Hlen; exact D2 | eapply swap_cells; [ exact E2 | apply Dm ] ].
    - intros t Htt. destruct Sh2 as (_ & _ & E). rewrite V2 by lia. unfold upd. destruct (t =? _); [ rewrite Vw; discriminate |]. destruct (t =? _); [ rewrite Ve; discriminate | apply Fm; lia ].
    - eapply shape_trans; eauto.
    - etransitivity; [| exact Pm1 ]. apply Permutation_map. rewrite <- app_assoc. apply Permutation_app_head. apply perm_swap.
    - change (pr ++ [(w, w1); e]) with (pr ++ ([(w, w1)] ++ [e])). rewrite app_assoc, map_app. apply words_app; [ rewrite map_app; apply words_app |].
      + rewrite map_app in Nw1. apply words_prefix in Nw1. rewrite map_app in Nw1. apply words_prefix in Nw1. eapply words_frame; [ exact Nw1 |]. intros t Htt. rewrite map_length in Htt. rewrite V2 by lia.
        unfold upd. now rewrite !(proj2 (Z.eqb_neq t _)) by lia.
      + rewrite map_length, V2 by lia. unfold upd. rewrite (proj2 (Z.eqb_eq _ _)) by lia. exact Vw.
      + rewrite map_length, app_length, V2 by (cbn; lia). cbn [length]. unfold upd. rewrite (proj2 (Z.eqb_neq _ _)) by lia. rewrite (proj2 (Z.eqb_eq _ _)) by lia. exact Ve.
    - intros t H1 H2. rewrite app_length in H2. cbn in H2. destruct Sh01 as (_ & _ & E). rewrite V2 by lia. unfold upd. rewrite !(proj2 (Z.eqb_neq t _)) by lia. apply El1; [ exact H1 |]. rewrite app_length. cbn. lia.
    - apply Forall_app in Pr1. destruct Pr1 as [P1 P2]. apply Forall_app in P1. destruct P1 as [P1 P3]. inversion P2; subst. inversion P3; subst. apply Forall_app. split; [ exact P1 |]. constructor; [ assumption |]. constructor; [ assumption | constructor ].
    - right. exists (pr ++ [(w, w1)]), e. rewrite <- app_assoc. split; [ reflexivity |]. fold now off. split; [ first [ exact Ep | reflexivity ] |]. apply Forall_app. split; [ exact Hl |]. constructor; [| constructor ]. cbn [fst]. lra.
    - auto.
    - exact Ls1.
  Qed.

  Lemma scan_from img st p s j m0 all : byte_image img -> glance_ok (lut (lev st)) img p s -> inner sz p -> 0 <= woff (lev st) -> 0 <= j < N -> len m0 = N * Z.of_nat n -> length all = n -> words_at m0 (j * Z.of_nat n) all ->
    forall l x prs z, (x + l = n)%nat -> scanned st img p s (j * Z.of_nat n) m0 (firstn x all) prs z ->
    ok (fun z' => exists prs', scanned st img p s (j * Z.of_nat n) m0 all prs' z') (each (scan_word c rnd sc st s (place sz p) (j * Z.of_nat n)) (seq x l) z).
  Proof.
    intros B G Hp Ho Hj L0 La Wa. induction l as [|l IH]; intros x prs z Hx Hz; cbn [seq each].
    - rewrite Nat.add_0_r in Hx. replace (firstn x all) with all in Hz by (symmetry; apply firstn_all2; lia). exists prs. exact Hz.
    - destruct (nth_error all x) as [w|] eqn:Ew; [| apply nth_error_None in Ew; lia ].
      eapply ok_bind; [ apply (scan_word_ok img st p s j x m0 (firstn x all) prs z w); auto; [ lia | rewrite firstn_length; lia ] |].
      intros z' (prs' & Hz'). apply (IH (S x) prs' z'); [ lia |].
      replace (firstn (S x) all) with (firstn x all ++ [w]); [ exact Hz' |]. clear - Ew. revert x Ew. induction all as [|a t IH]; intros [|x] E; try discriminate; [ injection E as ->; reflexivity |]. cbn [firstn app]. f_equal. now apply IH.
  Qed.
  Definition region (m : store word) (b : Z) (cnt : nat) : list word := map (fun x => match val m (b + Z.of_nat x) with Some w => w | None => {| colour := []; tex := []; first := 0; latest := 0; occ := 0 |} end) (seq 0 cnt).
  Lemma region_words (m : store word) b cnt : (forall t, b <= t < b + Z.of_nat cnt -> val m t <> None) -> words_at m b (region m b cnt).
  Proof.
    intros H x w E. unfold region in E. rewrite nth_error_map in E. destruct (nth_error (seq 0 cnt) x) as [y|] eqn:Ey; [| discriminate ].
    assert (Hx : (x < cnt)%nat) by (rewrite <- (seq_length cnt 0); apply nth_error_Some; congruence). rewrite (nth_error_nth' _ 0%nat) in Ey by (rewrite seq_length; exact Hx). rewrite seq_nth in Ey by exact Hx. injection Ey as <-.
    cbn in E. specialize (H (b + Z.of_nat x) ltac:(lia)). destruct (val m (b + Z.of_nat x)); [ congruence | easy ].
  Qed.
  Lemma scan_ok img st p s j : byte_image img -> glance_ok (lut (lev st)) img p s -> inner sz p -> 0 <= woff (lev st) -> 0 <= j < N -> dict_ok (frame (lev st)) (dict st) -> full_all (dict st) ->
    let b := j * Z.of_nat n in ok (fun z => exists prs, scanned st img p s b (dict st) (region (dict st) b n) prs z) (scan c rnd sc st s (place sz p) b).
  Proof.
    intros B G Hp Ho Hj D F b. unfold scan. pose proof (region_in c sc Hmost Hglob (dict st) j (d_len _ _ _ _ D) Hj) as Hr. unfold WordDict.within in Hr. fold b in Hr.
    apply (scan_from img st p s j (dict st) (region (dict st) b n) B G Hp Ho Hj (d_len _ _ _ _ D)) with (x := 0%nat) (prs := []).
    - unfold region. now rewrite map_length, seq_length.
    - apply region_words. intros t Ht. apply F. lia.
    - lia.
    - split; cbn [sdict found prev lowc lowd firstn map]; auto.
      + apply shape_refl. + intros [|x] w E; discriminate. + apply elsewhere_refl.
      + split; [ apply Qle_refl |]. split; [ apply Qle_refl | reflexivity ].
      + destruct Hk as [E | E]; rewrite E; lia.
  Qed.

  (* ------------------------------------------------------------------ global words *)
  Lemma search_ok g lo v bts : glob_ok g -> gfull g -> bytes k v -> 0 <= bts <= 48 -> forall l, (forall a, In a l -> 0 <= a < Z.of_nat (globals c)) ->
    ok (fun o => match o with
                 | None => forall a, In a l -> akin c lo v bts (cells g a) = Done false
                 | Some a => exists l1 l2, l = l1 ++ a :: l2 /\ akin c lo v bts (cells g a) = Done true /\ forall x, In x l1 -> akin c lo v bts (cells g x) = Done false end) (search c g lo v bts l).
  Proof.
    intros Hg Hf Hv Hb. induction l as [|a l IH]; intros Hl; cbn [search]; [ intros a [] |].
    destruct (cell_ok c Hmost Hglob g a Hg Hf (Hl a (or_introl eq_refl))) as [E G]. rewrite E. cbn [obind].
    destruct (akin_ok c Hk Hmost Hglob lo v bts (cells g a) Hv Hb G) as (b & Eb). rewrite Eb. cbn [obind]. destruct b.
    - exists [], l. split; [ reflexivity |]. split; [ exact Eb | intros x [] ].
    - eapply ok_mono; [ apply IH; intros x Hx; apply Hl; now right |]. intros [x|] H.
      + destruct H as (l1 & l2 & -> & E1 & E2). exists (a :: l1), l2. split; [ reflexivity |]. split; [ exact E1 |]. intros y [ <- | I ]; auto.
      + intros y [ <- | I ]; auto.
  Qed.
  Lemma put_glob g t w g' : glob_ok g -> gfull g -> good_gword w -> 0 <= t < Z.of_nat (globals c) -> put g t w = Done g' -> glob_ok g' /\ gfull g'.
  Proof.
    intros [G1 G2 G3] Hf W Ht E. destruct (put_ok g t w G1 ltac:(lia) (Hf t ltac:(lia))) as (m & Em & S & (_ & _ & Sl) & V & _). assert (m = g') by congruence. subst m.
    split; [ split; [ exact S | lia | eapply put_cells; eauto ] |]. intros u Hu. rewrite V by lia. unfold upd. destruct (u =? t); [ discriminate | apply Hf; lia ].
  Qed.
  Lemma double_rate r : 1 <= r < 2 ^ 64 -> r <> 2 ^ 63 -> Subsense.u64 (r * 2) <> 0.
  Proof. intros H N0 E. unfold Subsense.u64 in E. apply Z.mod_divide in E; [| discriminate ]. destruct E as [q E]. change (2 ^ 64) with 18446744073709551616 in *. change (2 ^ 63) with 9223372036854775808 in *. lia. Qed.

  Lemma teach_ok img st p s x u : byte_image img -> glance_ok (lut (lev st)) img p s -> inner sz p -> glob_ok (glob st) -> gfull (glob st) -> places (order st (place sz p)) -> (0 <= x)%Q ->
    ok (fun r => glob_ok (fst r) /\ gfull (fst r)) (teach c rnd sc st s (place sz p) x u).
  Proof.
    intros B G Hp Hg Hf Ho Hx. destruct (s_rate _ _ _ _ G) as [R1 R2]. unfold teach. rewrite lottery_ok by lia. cbn [obind]. destruct (_ =? 0); [| now split ].
    eapply ok_bind; [ apply (search_ok _ (ths s) (cur s) (bits s)); auto; [ eapply cur_bytes; eauto | apply (s_bits _ _ _ _ G) | intros a Ha; eapply places_in; eauto ] |].
    intros [a|] Ha; cbv beta iota in Ha.
    - destruct Ha as (l1 & l2 & El & _). assert (I : In a (order st (place sz p))) by (rewrite El; apply in_or_app; right; now left). pose proof (places_in c Hmost Hglob _ a Ho I) as Ra.
      destruct (cell_ok c Hmost Hglob (glob st) a Hg Hf Ra) as [E W]. rewrite E. cbn [obind].
      eapply ok_bind; [ apply (credit_ok c sc Hmost Hglob (cells (glob st) a) p x W Hp Hx) |]. intros w' W'. cbv beta in W'.
      destruct Hg as [G1 G2 G3]. destruct (assign_cell (glob st) w' a G1 ltac:(lia)) as (g' & Eg & S & (_ & _ & Sl) & V). rewrite Eg. cbn [obind ok fst].
      split; [ split; [ exact S | lia | eapply assign_cells; eauto ] |]. intros t Ht. apply V, Hf. lia.
    - rewrite lottery_ok by (apply double_rate; lia). cbn [obind]. destruct (_ =? 0); [| now split ].
      assert (Ht : 0 <= Z.of_nat (globals c) - 1 < Z.of_nat (globals c)) by lia. pose proof Hg as [G1 G2 G3].
      destruct (val (glob st) (Z.of_nat (globals c) - 1)) as [w|] eqn:Ew; [| exfalso; eapply Hf; [| exact Ew ]; lia ].
      rewrite (word_ok (glob st) (Z.of_nat (globals c) - 1) w G1 ltac:(lia) Ew). cbn [obind]. assert (W : good_gword w) by (eapply (cells_val _ (glob st)); eauto; lia). destruct W as (_ & _ & _ & m & Em & _). rewrite Em. cbn [obind].
      eapply ok_bind; [ apply (credit_ok c sc Hmost Hglob _ p x) ; [| exact Hp | exact Hx ] |].
      + split; [ eapply cur_bytes; eauto |]. split; [ apply (s_bits _ _ _ _ G) |]. split; [ apply Qle_refl |]. eexists. split; [ reflexivity |]. intros a. apply Qle_refl.
      + intros w' W'. cbv beta in W'. destruct (put_ok (glob st) (Z.of_nat (globals c) - 1) w' G1 ltac:(lia) ltac:(congruence)) as (g' & Eg & _). rewrite Eg. cbn [obind ok fst]. eapply put_glob; eauto.
  Qed.

  (* the pixel is forgiven only if the first global word like it is strong enough there *)
  Definition forgiven (st : state) (s : glance) (i : Z) (x : Q) : Prop := exists a l1 l2, order st i = l1 ++ a :: l2 /\ akin c (ths s) (cur s) (bits s) (cells (glob st) a) = Done true /\
    (forall y, In y l1 -> akin c (ths s) (cur s) (bits s) (cells (glob st) y) = Done false) /\ exists y, map_at sc (cells (glob st) a) i = Done y /\ (goal s <= x + y / (if flat s then 2 else 4))%Q.
  Lemma appeal_ok img st p s x u : byte_image img -> glance_ok (lut (lev st)) img p s -> inner sz p -> glob_ok (glob st) -> gfull (glob st) -> places (order st (place sz p)) ->
    ok (fun r => (fst r = false -> forgiven st s (place sz p) x) /\ (flat s = true -> forgiven st s (place sz p) x -> fst r = false)) (appeal c rnd sc st s (place sz p) x u).
  Proof.
    intros B G Hp Hg Hf Ho. destruct (s_rate _ _ _ _ G) as [R1 R2]. unfold appeal.
    assert (E : exists b, (if flat s then Done true else lottery (rnd u) (rate s)) = Done b /\ (flat s = true -> b = true)) by (destruct (flat s); [ eauto | rewrite lottery_ok by lia; eexists; split; [ reflexivity | discriminate ] ]).
    destruct E as (b & -> & Hb). cbn [obind]. destruct b.
    2: { split; cbn; [ discriminate | intros F; specialize (Hb F); discriminate ]. }
    eapply ok_bind; [ apply (search_ok _ (ths s) (cur s) (bits s)); auto; [ eapply cur_bytes; eauto | apply (s_bits _ _ _ _ G) | intros a Ha; eapply places_in; eauto ] |].
    intros [a|] Ha; cbv beta iota in Ha.
    - destruct Ha as (l1 & l2 & El & A1 & A2). assert (I : In a (order st (place sz p))) by (rewrite El; apply in_or_app; right; now left). pose proof (places_in c Hmost Hglob _ a Ho I) as Ra.
      destruct (cell_ok c Hmost Hglob (glob st) a Hg Hf Ra) as [E W]. rewrite E. cbn [obind].
      destruct (ok_ex _ _ (map_at_ok c sc Hmost Hglob (cells (glob st) a) p W Hp)) as (y & Ey & Hy). rewrite Ey. cbn [obind ok fst]. split.
      + intros F. apply Subsense.Qltb_false in F. exists a, l1, l2. split; [ exact El |]. split; [ exact A1 |]. split; [ exact A2 |]. exists y. split; [ exact Ey | exact F ].
      + intros _ (a' & m1 & m2 & Em & A1' & A2' & y' & Ey' & Hge).
        assert (a' = a).
        { assert (Hd : forall (l : list Z) (f : Z -> outcome bool) p1 a1 q1 p2 a2 q2, l = p1 ++ a1 :: q1 -> l = p2 ++ a2 :: q2 -> f a1 = Done true -> f a2 = Done true -> (forall z, In z p1 -> f z = Done false) -> (forall z, In z p2 -> f z = Done false) -> a1 = a2).
          { clear. intros l f p1. revert l. induction p1 as [|z p1 IH]; intros l a1 q1 p2 a2 q2 -> E2 F1 F2 H1 H2; destruct p2 as [|z2 p2]; cbn in E2; injection E2; intros; subst; auto.
            - exfalso. specialize (H2 z2 (or_introl eq_refl)). congruence.
            - exfalso. specialize (H1 a2 (or_introl eq_refl)). congruence.
            - eapply (IH _ a1 q1 p2 a2 q2 eq_refl); auto; intros y Hy; [ apply H1 | apply H2 ]; now right. }
          eapply (Hd _ (fun z => akin c (ths s) (cur s) (bits s) (cells (glob st) z)) _ _ _ _ _ _ Em El); auto. }
        subst a'. rewrite Ey in Ey'. injection Ey' as <-. destruct (qltb_cases (x + y / (if flat s then 2 else 4))%Q (goal s)) as [[_ H1]|[H1 _]]; [ lra | exact H1 ].
    - cbn. split; [ discriminate |]. intros _ (a' & m1 & m2 & Em & A1' & _). rewrite Ha in A1'; [ discriminate |]. rewrite Em. apply in_or_app. right. now left.
  Qed.

  (* ------------------------------------------------------------------ the neighbour *)
  Definition fresh (now : Z) (s : glance) : word := {| colour := cur s; tex := desc s; first := now; latest := now; occ := incr s |}.
  Lemma fresh_good lt img p s now : byte_image img -> 0 <= now -> glance_ok lt img p s -> good_word c now (fresh now s).
  Proof. intros B Hn G. unfold good_word, fresh. cbn. pose proof (cur_bytes _ _ _ _ B G) as Hb. pose proof (desc_textures _ _ _ _ B G) as Ht. pose proof (s_incr _ _ _ _ G). split; [ exact Hb |]. split; [ exact Ht |]. lia. Qed.
  Lemma put_dict now m t w : dict_ok now m -> full_all m -> good_word c now w -> 0 <= t < len m ->
    exists m', put m t w = Done m' /\ dict_ok now m' /\ full_all m' /\ shape m m' /\ (forall u, 0 <= u < len m -> val m' u = upd (val m) t (Some w) u).
  Proof.
    intros [D1 D2 D3] F W Ht. destruct (put_ok m t w D1 Ht (F t Ht)) as (m' & E & S & Sh & V & _). exists m'. split; [ exact E |]. pose proof Sh as (_ & _ & Sl). split; [| split; [| split; [ exact Sh | exact V ] ] ].
    - split; [ exact S | lia | eapply put_cells; eauto ].
    - intros u Hu. rewrite V by lia. unfold upd. destruct (u =? t); [ discriminate | apply F; lia ].
  Qed.
  Lemma replace_ok lt img p s now j m : byte_image img -> 0 <= now -> glance_ok lt img p s -> dict_ok now m -> full_all m -> 0 <= j < N -> let b := j * Z.of_nat n in
    exists m', replace c now s b m = Done m' /\ dict_ok now m' /\ full_all m' /\ shape m m' /\ (forall u, 0 <= u < len m -> val m' u = upd (val m) (b + Z.of_nat n - 1) (Some (fresh now s)) u).
  Proof.
    intros B Hn G D F Hj b. pose proof (region_in c sc Hmost Hglob m j (d_len _ _ _ _ D) Hj) as Hr. unfold WordDict.within in Hr. fold b in Hr. pose proof (locals_pos c Hmost Hglob).
    unfold replace. apply put_dict; auto; [ eapply fresh_good; eauto | lia ].
  Qed.

  Record touched (s : glance) (now : Z) (w w' : word) : Prop := {
    h_first : first w' = first w; h_colour : colour w' = colour w \/ colour w' = cur s; h_tex : tex w' = tex w \/ tex w' = desc s;
    h_latest : latest w' = latest w \/ latest w' = now; h_occ : occ w <= occ w'; h_grey : k = 1 -> w' = w }.
  Lemma touched_refl s now w : touched s now w w. Proof. split; auto; lia. Qed.
  Lemma touched_trans s now w w' w'' : touched s now w w' -> touched s now w' w'' -> touched s now w w''.
  Proof.
    intros [A1 A2 A3 A4 A5 A6] [B1 B2 B3 B4 B5 B6]. split; [ congruence | | | | lia | intros E; rewrite (B6 E); auto ].
    - destruct B2 as [-> | ->]; auto. - destruct B3 as [-> | ->]; auto. - destruct B4 as [-> | ->]; auto.
  Qed.
  (* the words of a region word by word *)
  Record visited (s : glance) (now : Z) (b : Z) (m m' : store word) : Prop := {
    v_dict : dict_ok now m'; v_full : full_all m'; v_shape : shape m m'; v_else : elsewhere m m' b n;
    v_words : forall t, b <= t < b + Z.of_nat n -> exists w w', val m t = Some w /\ val m' t = Some w' /\ touched s now w w' }.
  Lemma visited_refl s now b m : dict_ok now m -> full_all m -> 0 <= b -> b + Z.of_nat n <= len m -> visited s now b m m.
  Proof.
    intros D F H1 H2. split; auto; [ apply shape_refl | apply elsewhere_refl |]. intros t Ht. destruct (val m t) as [w|] eqn:E; [| exfalso; apply (F t); [ lia | exact E ] ].
    exists w, w. split; [ reflexivity |]. split; [ reflexivity |]. apply touched_refl.
  Qed.
  Lemma visited_put s now b m m' t w w' : visited s now b m m' -> 0 <= b -> b + Z.of_nat n <= len m -> b <= t < b + Z.of_nat n -> val m' t = Some w -> good_word c now w' -> touched s now w w' ->
    exists m'', put m' t w' = Done m'' /\ visited s now b m m''.
  Proof.
    intros [V1 V2 V3 V4 V5] Hb1 Hb2 Ht Ew W T. pose proof V3 as (_ & _ & Sl). destruct (put_dict now m' t w' V1 V2 W ltac:(lia)) as (m'' & E & D & F & Sh & V). exists m''. split; [ exact E |]. split; auto.
    - eapply shape_trans; eauto.
    - intros u H1 H2. rewrite V by lia. unfold upd. rewrite (proj2 (Z.eqb_neq u t)) by lia. now apply V4.
    - intros u Hu. destruct (V5 u Hu) as (w0 & w1 & E0 & E1 & R). destruct (Z.eq_dec u t) as [-> | Hne].
      + exists w0, w'. split; [ exact E0 |]. split; [ rewrite V by lia; unfold upd; now rewrite Z.eqb_refl |]. assert (w1 = w) by congruence. subst w1.
        eapply touched_trans; eauto.
      + exists w0, w1. split; [ exact E0 |]. split; [| exact R ]. rewrite V by lia. unfold upd. now rewrite (proj2 (Z.eqb_neq u t)) by lia.
  Qed.

  Lemma place_in_ok q l : In q l -> 0 <= place_in q l < Z.of_nat (length l) /\ nth (Z.to_nat (place_in q l)) l 0 = q.
  Proof.
    induction l as [|a l IH]; intros I; [ destruct I |]. cbn [place_in length]. destruct (Z.eqb_spec a q) as [-> | Hne]; [ split; [ lia | reflexivity ] |].
    destruct I as [E | I]; [ congruence |]. destruct (IH I) as [H1 H2]. split; [ lia |]. replace (Z.to_nat (1 + place_in q l)) with (S (Z.to_nat (place_in q l))) by lia. exact H2.
  Qed.

  Lemma neighbour_word_ok img st p s fg q bq x m0 z : byte_image img -> glance_ok (lut (lev st)) img p s -> inner sz q -> 0 <= frame (lev st) -> seen_ok st -> 0 <= bq -> bq + Z.of_nat n <= len m0 -> (x < n)%nat ->
    visited s (frame (lev st)) bq m0 (fst (fst z)) -> ok (fun z' => visited s (frame (lev st)) bq m0 (fst (fst z'))) (neighbour_word c rnd sc st s fg (place sz q) bq x z).
  Proof.
    intros B G Hq Hn Hs Hb1 Hb2 Hx V. destruct z as [[m u] y]. cbn [fst] in V. unfold neighbour_word. destruct (negb (Qltb y (goal s))); [ exact V |].
    set (t := bq + Z.of_nat x). pose proof V as [V1 V2 (_ & _ & V3) V4 V5]. assert (Ht : 0 <= t < len m) by (unfold t; lia).
    destruct (val m t) as [w|] eqn:Ew; [| exfalso; apply (V2 t Ht Ew) ]. rewrite (word_ok _ _ w (d_sound _ _ _ _ V1) Ht Ew). cbn [obind].
    assert (W : good_word c (frame (lev st)) w) by (eapply cells_val; [ apply V1 | apply V1 | exact Ht | exact Ew ]).
    pose proof W as (W1 & W2 & W3 & W4 & W5). pose proof (cur_bytes _ _ _ _ B G) as Cb. pose proof (desc_textures _ _ _ _ B G) as Ct.
    rewrite (proj1 (colour_gap_ok c (cur s) (colour w) Hk Cb W1)). cbn [obind]. rewrite (proj1 (texture_gap_ok k (desc s) (tex w) Hk Ct W2)). cbn [obind].
    rewrite (proj1 (count_bits_ok k (tex w) Hk W2)). cbn [obind].
    set (more := if Qltb _ _ then _ else 0). assert (Hm : 0 <= more). { unfold more. pose proof (s_incr _ _ _ _ G). destruct (Qltb _ _); [ destruct (_ <? _); lia | lia ]. }
    assert (Gain : forall (u' : nat) (w' : word), good_word c (frame (lev st)) w' -> first w' = first w -> colour w' = colour w \/ colour w' = cur s -> tex w' = tex w \/ tex w' = desc s -> latest w' = latest w -> occ w' = occ w ->
      ok (fun z' => visited s (frame (lev st)) bq m0 (fst (fst z'))) (obind (if k =? 1 then Done m else put m t (again (frame (lev st)) more w')) (fun m' => Done (m', u', Qred (y + weight (frame (lev st)) (woff (lev st)) w))))).
    { intros u' w' Gw' F1 F2 F3 F4 F5. destruct (Z.eqb_spec k 1) as [K|K]; [ exact V |].
      destruct (visited_put s (frame (lev st)) bq m0 m t w (again (frame (lev st)) more w') V Hb1 Hb2 ltac:(unfold t; lia) Ew (good_again _ _ _ _ Hm Gw')) as (m'' & E & V'').
      - split; cbn; auto; [ lia | intros; lia ].
      - rewrite E. exact V''. }
    destruct (_ && _); [ apply Gain; auto |].
    rewrite access_get by (apply place_range, inner_image; exact Hq). cbn [obind]. destruct (fg (place sz q) || negb (flat s)); [ exact V |].
    assert (E : exists b, (if boot s then Done true else lottery (rnd u) (rate s)) = Done b). { destruct (boot s); [ eauto |]. destruct (s_rate _ _ _ _ G) as [R _]. rewrite lottery_ok by lia. eauto. }
    destruct E as (b & ->). cbn [obind]. destruct b; cbn [negb]; [| exact V ].
    destruct (fetch_textures c sc Hk (ldesc st) q (e_ldesc _ Hs) (inner_image _ _ Hq)) as (e & -> & He). cbn [access obind].
    rewrite (proj1 (texture_gap_ok k (desc s) e Hk Ct He)). cbn [obind]. destruct (_ && _).
    { apply Gain; cbn; auto. split; [ exact W1 |]. split; [ exact Ct |]. cbn. lia. }
    destruct (Z.eqb_spec k 1) as [K|K]; [ exact V |]. assert (K3 : k = 3) by lia. rewrite (proj1 (count_bits_ok k e Hk He)). cbn [obind].
    destruct (angle_gap_ok (cur s) (colour w)) as (a & -> & _); [ rewrite <- K3; exact Cb | rewrite <- K3; exact W1 |]. cbn [obind].
    destruct (_ && _); [| exact V ]. apply Gain; cbn; auto. split; [ exact Cb |]. split; [ exact W2 |]. cbn. lia.
  Qed.

  (* what the update of a neighbour does *)
  Record passed (s : glance) (now : Z) (b : Z) (m m' : store word) : Prop := {
    q_else : elsewhere m m' b n;
    q_words : forall t, b <= t < b + Z.of_nat n -> exists w w', val m t = Some w /\ val m' t = Some w' /\ (touched s now w w' \/ (t = b + Z.of_nat n - 1 /\ w' = fresh now s)) }.
  Lemma neighbour_ok img st p s fg m u : byte_image img -> glance_ok (lut (lev st)) img p s -> inner sz p -> 0 <= frame (lev st) -> seen_ok st -> dict_ok (frame (lev st)) m -> full_all m ->
    ok (fun r => dict_ok (frame (lev st)) (fst r) /\ full_all (fst r) /\ shape m (fst r) /\
      (fst r = m \/ exists q, inner sz q /\ Spec.Vibe.within 2 q p /\ roi sc (place sz q) <> 0 /\ passed s (frame (lev st)) (place_in (place sz q) (pxs sc) * Z.of_nat n) m (fst r)) /\
      (fg (place sz p) = true -> border s = false -> moving (lev st) = false -> fst r = m)) (neighbour c rnd sc st s fg (place sz p) m u).
  Proof.
    intros B G Hp Hn Hs D F. destruct (s_rate _ _ _ _ G) as [R _]. unfold neighbour.
    assert (E : exists b, (if fg (place sz p) then Done false else lottery (rnd u) (rate s)) = Done b /\ (fg (place sz p) = true -> b = false)).
    { destruct (fg (place sz p)); [ eauto |]. rewrite lottery_ok by lia. eexists. split; [ reflexivity | discriminate ]. }
    destruct E as (won & -> & Hwon). cbn [obind].
    assert (Same : forall u' : nat, ok (fun r => dict_ok (frame (lev st)) (fst r) /\ full_all (fst r) /\ shape m (fst r) /\
      (fst r = m \/ exists q, inner sz q /\ Spec.Vibe.within 2 q p /\ roi sc (place sz q) <> 0 /\ passed s (frame (lev st)) (place_in (place sz q) (pxs sc) * Z.of_nat n) m (fst r)) /\
      (fg (place sz p) = true -> border s = false -> moving (lev st) = false -> fst r = m)) (Done (m, u'))).
    { intros u'. cbn [ok fst]. split; [ exact D |]. split; [ exact F |]. split; [ apply shape_refl |]. split; [ now left | reflexivity ]. }
    destruct (won || border s || moving (lev st)) eqn:Eact; [| apply Same ].
    assert (Hquiet : ~ (fg (place sz p) = true /\ border s = false /\ moving (lev st) = false)).
    { intros (A1 & A2 & A3). rewrite (Hwon A1), A2, A3 in Eact. discriminate. }
    assert (Eq : exists q, (if flat s || border s || moving (lev st) then getNeighborPosition_5x5 else getNeighborPosition_3x3) (rnd (if fg (place sz p) then u else S u)) (point sz (place sz p)) 2 sz = Some q /\ inner sz q /\ Spec.Vibe.within 2 q p).
    { rewrite point_place by (apply inner_image; exact Hp). destruct (flat s || border s || moving (lev st)).
      - apply SubsensePixel.neighbour_wide; auto.
      - destruct (neighbour_inner (rnd (if fg (place sz p) then u else S u)) p sz (Hrnd _) Hp) as (q & E1 & E2 & E3). exists q. split; [ exact E1 |]. split; [ exact E2 |]. unfold Spec.Vibe.within in *. lia. }
    destruct Eq as (q & -> & Hq & Wq). cbn [access obind]. rewrite access_get by (apply place_range, inner_image; exact Hq). cbn [obind].
    destruct (Z.eqb_spec (roi sc (place sz q)) 0) as [Hz|Hz]; [ apply Same |].
    destruct (place_in_ok _ _ (sc_roi sc Hsc q Hq Hz)) as [Hj _]. set (j := place_in (place sz q) (pxs sc)) in *.
    pose proof (region_in c sc Hmost Hglob m j (d_len _ _ _ _ D) Hj) as Hr. unfold WordDict.within in Hr. pose proof (locals_pos c Hmost Hglob) as Hlp.
    eapply ok_bind; [ apply (ok_each (fun z => visited s (frame (lev st)) (j * Z.of_nat n) m (fst (fst z)))) |].
    - intros x z Hx Hz'. apply in_seq in Hx. eapply neighbour_word_ok; eauto; lia.
    - cbn [fst]. apply visited_refl; auto; lia.
    - intros [[m2 u2] y] V. cbn [fst] in V. pose proof V as [V1 V2 V3 V4 V5].
      assert (Hend : forall m3, dict_ok (frame (lev st)) m3 -> full_all m3 -> shape m m3 -> passed s (frame (lev st)) (j * Z.of_nat n) m m3 ->
        ok (fun r => dict_ok (frame (lev st)) (fst r) /\ full_all (fst r) /\ shape m (fst r) /\
          (fst r = m \/ exists q, inner sz q /\ Spec.Vibe.within 2 q p /\ roi sc (place sz q) <> 0 /\ passed s (frame (lev st)) (place_in (place sz q) (pxs sc) * Z.of_nat n) m (fst r)) /\
          (fg (place sz p) = true -> border s = false -> moving (lev st) = false -> fst r = m)) (Done (m3, u2))).
      { intros m3 A1 A2 A3 A4. cbn [ok fst]. split; [ exact A1 |]. split; [ exact A2 |]. split; [ exact A3 |]. split; [ right; exists q; auto | intros; exfalso; apply Hquiet; auto ]. }
      destruct (Qltb y _); cbn [obind].
      + destruct (replace_ok (lut (lev st)) img p s (frame (lev st)) j m2 B Hn G V1 V2 Hj) as (m3 & E3 & D3 & F3 & Sh3 & V3'). rewrite E3. cbn [obind]. apply Hend; auto; [ eapply shape_trans; eauto |].
        pose proof V3 as (_ & _ & Sl). split.
        * intros t H1 H2. rewrite V3' by lia. unfold upd. rewrite (proj2 (Z.eqb_neq t _)) by lia. now apply V4.
        * intros t Ht. destruct (V5 t Ht) as (w & w' & E1 & E2 & T). destruct (Z.eq_dec t (j * Z.of_nat n + Z.of_nat n - 1)) as [-> | Hne].
          -- exists w, (fresh (frame (lev st)) s). split; [ exact E1 |]. split; [ rewrite V3' by lia; unfold upd; now rewrite Z.eqb_refl | now right ].
          -- exists w, w'. split; [ exact E1 |]. split; [| now left ]. rewrite V3' by lia. unfold upd. now rewrite (proj2 (Z.eqb_neq t _)) by lia.
      + apply Hend; auto. split; [ exact V4 |]. intros t Ht. destruct (V5 t Ht) as (w & w' & E1 & E2 & T). exists w, w'. auto.
  Qed.

  (* ------------------------------------------------------------------ the feedback of a pixel *)
  Lemma pixel_later a b p : a <= b -> pixel_ok a p -> pixel_ok b p.
  Proof.
    intros H [P1 P2 P3 P4]. assert (E : (inject_Z (boost a) <= inject_Z (boost b))%Q) by (apply Subsense.inject_le; unfold boost; lia).
    split; [ exact P1 | destruct P2; split; lra | destruct P3; split; lra | exact P4 ].
  Qed.
  Lemma qmin_in (a b l h : Q) : (l <= a <= h -> l <= b <= h -> l <= Qmin a b <= h)%Q.
  Proof. intros H1 H2. apply (Q.min_case a b (fun x => l <= x <= h)%Q); auto. intros x y E [A B]. split; [ now rewrite <- E | now rewrite <- E ]. Qed.
  Lemma qmax_in (a b l h : Q) : (l <= a <= h -> l <= b <= h -> l <= Qmax a b <= h)%Q.
  Proof. intros H1 H2. apply (Q.max_case a b (fun x => l <= x <= h)%Q); auto. intros x y E [A B]. split; [ now rewrite <- E | now rewrite <- E ]. Qed.

  Lemma next_rate_ok p fg lo hi : (1 <= Subsense.rate p <= 256)%Q -> ((1 # 10) <= Subsense.modulator p)%Q -> (0 <= hi)%Q -> (1 <= next_rate p fg lo hi <= 256)%Q.
  Proof.
    intros [R1 R2] M H. unfold next_rate, Subsense.over. destruct (_ || _).
    - destruct (Qeq_bool _ _) eqn:E; cbn [Subsense.plus_ext]; [ split; lra |]. apply Qeq_bool_neq in E.
      assert (P : (0 <= hi * Subsense.modulator p)%Q) by (apply Qmult_le_0_compat; lra). assert (P' : (0 < hi * Subsense.modulator p)%Q) by (apply Qle_lteq in P; destruct P as [P|P]; [ exact P | symmetry in P; contradiction ]).
      assert (D : (0 <= (1 # 2) / (hi * Subsense.modulator p))%Q) by (apply Qle_shift_div_l; lra). split; [ apply Q.min_glb; lra | apply Q.le_min_r ].
    - destruct (Qeq_bool _ _) eqn:E; cbn [Subsense.minus_ext]; [ split; lra |]. apply Qeq_bool_neq in E.
      assert (P' : (0 < hi)%Q) by (apply Qle_lteq in H; destruct H as [P|P]; [ exact P | symmetry in P; contradiction ]).
      assert (D : (0 <= (1 # 4) * Subsense.modulator p / hi)%Q) by (apply Qle_shift_div_l; lra). split; [ apply Q.le_max_r | apply Q.max_lub; lra ].
  Qed.
  Lemma feedback_ok now al as_ s bg fg x p : 1 <= now -> Spec.Subsense.unit al -> Spec.Subsense.unit as_ -> Spec.Subsense.unit x -> boot s = (now <=? 500) -> pixel_ok (now - 1) p -> pixel_ok now (feedback al as_ s bg fg x p).
  Proof.
    intros Hnow Ha Has Hx Hb [P1 P2 P3 P4]. inversion P4 as [|? ? U1 P5]; subst. inversion P5 as [|? ? U2 P6]; subst. inversion P6 as [|? ? U3 P7]; subst. inversion P7 as [|? ? U4 P8]; subst. inversion P8 as [|? ? U5 P9]; subst. inversion P9 as [|? ? U6 P10]; subst.
    unfold feedback. set (mlt := Subsense.roll (Subsense.min_lt p) al x). set (mst := Subsense.roll (Subsense.min_st p) as_ x).
    assert (V1 : Spec.Subsense.unit mlt) by (apply Subsense.roll_unit; auto). assert (V2 : Spec.Subsense.unit mst) by (apply Subsense.roll_unit; auto).
    set (lo := Qmin mlt mst). set (hi := Qmax mlt mst). assert (L1 : (0 <= lo <= 1)%Q) by (apply qmin_in; auto). assert (L2 : (0 <= hi <= 1)%Q) by (apply qmax_in; auto).
    assert (B1 : (inject_Z (boost now) == inject_Z (boost (now - 1)) + (if boot s then 2 else 1))%Q).
    { rewrite Hb. destruct (Z.leb_spec now 500); [ change 2%Q with (inject_Z 2) | change 1%Q with (inject_Z 1) ]; rewrite <- inject_Z_plus; apply inject_Z_injective; unfold boost; lia. }
    assert (M : ((1 # 10) <= next_modulator p s hi <= 10 + inject_Z (boost now))%Q).
    { unfold next_modulator. destruct P2 as [M1 M2]. destruct (_ && _).
      - rewrite B1. destruct (boot s); split; lra.
      - assert (D : (0 <= (1 # 10) * (if boot s || flat s then 2 else if Subsense.last_final p then 1 # 2 else 1))%Q) by (destruct (_ || _); [| destruct (Subsense.last_final p) ]; lra).
        split; [ apply Q.le_max_r | apply Q.max_lub; rewrite B1; destruct (boot s); lra ]. }
    set (v := next_modulator p s hi) in *.
    assert (M' : ((1 # 10) <= Qred v <= 10 + inject_Z (boost now))%Q) by (rewrite Qred_correct; exact M).
    split; cbn [Subsense.rate Subsense.radius Subsense.modulator Subsense.min_lt Subsense.min_st Subsense.raw_lt Subsense.raw_st Subsense.final_lt Subsense.final_st].
    - rewrite !Qred_correct. apply next_rate_ok; [ exact P1 | apply P2 | apply L2 ].
    - exact M'.
    - rewrite (Qred_correct (Subsense.next_radius p (Qred v) lo)). destruct (Subsense.next_radius_in p (Qred v) lo) as [N1 N2]; [ apply M' | apply P3 | exact L1 |]. split; [ exact N1 |].
      destruct P3 as [_ P3]. unfold Subsense.FEEDBACK_R_VAR, Subsense.FEEDBACK_V_DECR in N2. destruct N2 as [N2|N2]; [| lra ].
      rewrite B1. destruct (boot s); lra.
    - assert (U : Spec.Subsense.unit (if bg then 0 else 1)%Q) by (unfold Spec.Subsense.unit; destruct bg; lra). repeat (constructor; [ first [ exact V1 | exact V2 | apply Subsense.roll_unit; assumption | assumption ] |]). constructor.
  Qed.
  Lemma normalized_ok s (bg : bool) z : (0 <= found z)%Q -> (bg = false -> (found z < goal s)%Q) -> 0 <= lowc z <= 255 * k -> 0 <= lowd z <= 16 * k -> Spec.Subsense.unit (normalized c s bg z).
  Proof.
    intros F B C D. unfold normalized. assert (U : forall a b, 0 <= a <= b -> 0 < b -> (0 <= inject_Z a / inject_Z b <= 1)%Q).
    { intros a b [H1 H2] H3. apply (Subsense.inject_le 0) in H1. apply Subsense.inject_le in H2. apply (Subsense.inject_lt 0) in H3. change (inject_Z 0) with 0%Q in *. split; [ apply Qle_shift_div_l; lra | apply Qle_shift_div_r; lra ]. }
    assert (D1 : (0 <= Qmax (inject_Z (lowc z) / inject_Z (255 * k)) (inject_Z (lowd z) / inject_Z (16 * k)) <= 1)%Q) by (apply qmax_in; apply U; lia).
    destruct bg; [ exact D1 |]. specialize (B eq_refl). apply qmax_in; [ exact D1 |]. split; [ apply Qle_shift_div_l; lra | apply Qle_shift_div_r; lra ].
  Qed.

  (* ------------------------------------------------------------------ a pixel *)
  Record mid (now : Z) (done : list Z) (st : state) : Prop := {
    n_frame : frame (lev st) = now; n_off : 0 <= woff (lev st); n_cool : 0 <= cool (lev st); n_seen : seen_ok st; n_dict : dict_ok now (dict st); n_full : full_all (dict st);
    n_glob : glob_ok (glob st); n_gfull : gfull (glob st); n_order : forall i, places (order st i);
    n_px : forall i, In i (pxs sc) -> pixel_ok (if in_dec Z.eq_dec i done then now else now - 1) (px st i) }.

  (* what a pixel does: [b] is the place of its first word *)
  Record deed (img : Z -> Z) (ov : Z) (p : Z * Z) (b : Z) (st : state) (fg : bool) (st' : state) : Prop := {
    x_decision : exists s, glance_ok (lut (lev st)) img p s /\ thresholds c (px st (place sz p)) = Done (ths s) /\ border s = (roi sc (place sz p) <? 255) /\ flat s = (ones_of (texel (lut (lev st)) img p) <? (if k =? 1 then 2 else 4)) /\
        incr s = (1 + cool (lev st)) * (if flat s || (frame (lev st) <=? 500) then 2 else 1) /\
        (exists w, val (dict st) b = Some w /\ goal s = (weight (frame (lev st)) (woff (lev st)) w / (Subsense.radius (px st (place sz p)) * 2))%Q) /\
        (let near := weighed st img p s (region (dict st) b n) in
         ((goal s <= near)%Q \/ border s = true -> fg = false) /\
         (fg = false -> (goal s <= near)%Q \/ border s = true \/ forgiven st s (place sz p) near) /\
         ((goal s <= near)%Q \/ border s = true \/ flat s = false \/ (forgiven st s (place sz p) near <-> fg = false)) /\
         exists prs m1 m2, Permutation (map fst prs) (region (dict st) b n) /\ Forall (fun x => renewed (lut (lev st)) img p s (frame (lev st)) (fst x) (snd x)) prs /\
           (exists pr x, prs = pr ++ [x] /\ Forall (fun y => weight (frame (lev st)) (woff (lev st)) (fst x) <= weight (frame (lev st)) (woff (lev st)) (fst y))%Q pr) /\
           words_at m1 b (map snd prs) /\ elsewhere (dict st) m1 b n /\ shape (dict st) m1 /\ shape m1 m2 /\
           (m2 = m1 \/ (~ (goal s <= near)%Q /\ border s = false /\ (near < 1 / inject_Z (woff (lev st)))%Q /\ forall t, 0 <= t < len m1 -> val m2 t = upd (val m1) (b + Z.of_nat n - 1) (Some (fresh (frame (lev st)) s)) t)) /\
           shape m2 (dict st') /\
           (dict st' = m2 \/ exists q, inner sz q /\ Spec.Vibe.within 2 q p /\ roi sc (place sz q) <> 0 /\ passed s (frame (lev st)) (place_in (place sz q) (pxs sc) * Z.of_nat n) m2 (dict st')) /\
           (fg = true -> moving (lev st) = false -> dict st' = m2));
    x_lev : lev st' = lev st; x_order : order st' = order st; x_dil : dil st' = dil st;
    x_seen : forall p' x, in_image sz p' -> 0 <= x < k -> seen st' (place sz p' * k + x) = if place sz p' =? place sz p then value k sz img p x else seen st (place sz p' * k + x);
    x_glob : fg = true -> glob st' = glob st }.

  Lemma store_ok (P : Z -> Prop) m i l : Z.of_nat (length l) = k -> (forall x, P (m x)) -> Forall P l -> forall x, P (SubsenseFrame.store1 m i l x).
  Proof.
    intros L H F x. unfold SubsenseFrame.store1. destruct (inside_buf _ _) eqn:E; [| apply H ]. unfold inside_buf in E. rewrite andb_true_iff, Z.leb_le, Z.ltb_lt in E. rewrite Forall_forall in F. apply F, nth_In. lia.
  Qed.
  Lemma apply_pixel_ok now ov img al as_ j p done out fg0 st : byte_image img -> ov_ok ov -> Spec.Subsense.unit al -> Spec.Subsense.unit as_ -> inner sz p -> In (j, place sz p) (numbered sc) -> 1 <= now ->
    ~ In (place sz p) done -> mid now done st ->
    safe (4940 < now) (fun r => exists fg nzb, fst (fst r) = out ++ [(place sz p, (fg, nzb))] /\ mid now (place sz p :: done) (snd r) /\ deed img ov p (j * Z.of_nat n) st fg (snd r))
      (apply_pixel c rnd ov sc img al as_ (j, place sz p) (out, fg0, st)).
  Proof.
    intros B Hov Ha Has Hp Hin Hnow Hnd [N1 N2 N3 N4 N5 N6 N7 N8 N9 N10]. destruct (numbered_in c rnd sc Hrnd Hmost Hglob _ _ Hin) as (Hj & Hi & Hnth).
    assert (Hpx : pixel_ok (now - 1) (px st (place sz p))) by (specialize (N10 _ Hi); destruct (in_dec _ _ _); [ contradiction | exact N10 ]).
    unfold apply_pixel. cbn [fst snd]. rewrite <- N1 in N5.
    apply (safe_bind _ (fun s => glance_ok (lut (lev st)) img p s /\ thresholds c (px st (place sz p)) = Done (ths s) /\ border s = (roi sc (place sz p) <? 255) /\ boot s = (frame (lev st) <=? 500) /\
      flat s = (bits s <? (if k =? 1 then 2 else 4)) /\ rate s = rate_of ov (flat s) (Subsense.rate (px st (place sz p))) /\ incr s = (1 + cool (lev st)) * (if flat s || boot s then 2 else 1) /\
      exists w, val (dict st) (j * Z.of_nat n) = Some w /\ goal s = (weight (frame (lev st)) (woff (lev st)) w / (Subsense.radius (px st (place sz p)) * 2))%Q)).
    { pose proof (look_ok (now - 1) ov img st j p B Hov N3 N5 N6 Hp Hj Hpx) as H. destruct (look _ _ _ _ _ _ _) as [s| | |f]; cbn [safe] in *; auto. destruct f; auto. lia. }
    intros s (G & Gt & Gb & Gbt & Gf & Gr & Gi & w0 & Gw & Gg). apply safe_ok. set (b := j * Z.of_nat n) in *.
    eapply ok_bind; [ apply (scan_ok img st p s j B G Hp N2 Hj N5 N6) |]. fold b. intros z (prs & Hz). pose proof Hz as [Z1 Z2 Z3 Z4 Z5 Z6 Z7 Z8 (F1 & F2 & F3) (Z9 & Z10)].
    assert (Lr : length (region (dict st) b n) = n) by (unfold region; now rewrite map_length, seq_length). rewrite Lr in Z6. pose proof (locals_pos c Hmost Hglob) as Hlp.
    set (near := weighed st img p s (region (dict st) b n)) in *.
    assert (Hnear : (goal s <= found z)%Q <-> (goal s <= near)%Q).
    { split; intros H; [ lra |]. destruct (Qlt_le_dec (found z) (goal s)) as [L|L]; [ specialize (F3 L); lra | exact L ]. }
    set (bg := Qle_bool (goal s) (found z) || border s).
    assert (Hbg : bg = true <-> (goal s <= near)%Q \/ border s = true) by (unfold bg; rewrite orb_true_iff, Qle_bool_iff, Hnear; reflexivity).
    assert (Hnb : bg = false -> (found z < goal s)%Q /\ border s = false /\ (found z == near)%Q).
    { intros E. unfold bg in E. apply orb_false_iff in E. destruct E as [E1 E2]. assert (L : (found z < goal s)%Q) by (apply Qnot_le_lt; intros H; apply Qle_bool_iff in H; congruence). auto. }
    assert (Hfg : forall x, (x == near)%Q -> forgiven st s (place sz p) x <-> forgiven st s (place sz p) near).
    { intros x E. unfold forgiven. split; intros (a & l1 & l2 & A1 & A2 & A3 & y & A4 & A5); exists a, l1, l2; (split; [ exact A1 |]); (split; [ exact A2 |]); (split; [ exact A3 |]); exists y; (split; [ exact A4 |]); lra. }
    apply (ok_bind (fun d => let '(g1, n1, fgi, m1) := d in glob_ok g1 /\ gfull g1 /\ dict_ok (frame (lev st)) m1 /\ full_all m1 /\ shape (sdict z) m1 /\ (fgi = true -> g1 = glob st) /\
       (bg = true -> fgi = false) /\ (bg = false -> fgi = false -> forgiven st s (place sz p) near) /\ (bg = false -> flat s = true -> forgiven st s (place sz p) near -> fgi = false) /\
       (m1 = sdict z \/ (bg = false /\ (near < 1 / inject_Z (woff (lev st)))%Q /\ forall t, 0 <= t < len (sdict z) -> val m1 t = upd (val (sdict z)) (b + Z.of_nat n - 1) (Some (fresh (frame (lev st)) s)) t)))).
    { destruct bg eqn:Ebg.
      - eapply ok_bind; [ apply (teach_ok img st p s (found z) (sused z) B G Hp N7 N8 (N9 _) F1) |]. intros [g1 u1] [T1 T2]. cbn [fst snd ok]. cbn [fst] in *. do 4 (split; [ assumption |]). split; [ apply shape_refl |]. split; [ discriminate |].
        split; [ reflexivity |]. split; [ discriminate |]. split; [ discriminate | now left ].
      - destruct (Hnb eq_refl) as (H1 & H2 & H3). eapply ok_bind; [ apply (appeal_ok img st p s (found z) (sused z) B G Hp N7 N8 (N9 _)) |]. intros [fgi u1] [T1 T2]. cbn [fst snd] in *.
        assert (T1' : fgi = false -> forgiven st s (place sz p) near) by (intros E; apply (Hfg (found z) H3); auto).
        assert (T2' : flat s = true -> forgiven st s (place sz p) near -> fgi = false) by (intros E1 E2; apply T2; [ exact E1 | apply (Hfg (found z) H3); exact E2 ]).
        destruct (qltb_cases (found z) (1 / inject_Z (woff (lev st)))) as [[-> Hl]|[-> Hl]].
        + destruct (replace_ok (lut (lev st)) img p s (frame (lev st)) j (sdict z) B ltac:(lia) G Z1 Z2 Hj) as (m1 & Em & D1 & D2 & D3 & D4). fold b in Em, D4. rewrite Em. cbn [obind ok].
          do 4 (split; [ assumption |]). split; [ exact D3 |]. split; [ reflexivity |]. split; [ discriminate |]. split; [ auto |]. split; [ auto |]. right. split; [ reflexivity |]. split; [ lra | exact D4 ].
        + cbn [obind ok]. do 4 (split; [ assumption |]). split; [ apply shape_refl |]. split; [ reflexivity |]. split; [ discriminate |]. split; [ auto |]. split; [ auto | now left ]. }
    intros [[[g1 u1] fgi] m1] (T1 & T2 & T3 & T4 & T5 & T6 & T7 & T8 & T9 & T10).
    eapply ok_bind; [ apply (neighbour_ok img st p s (SubsenseFrame.set1 fg0 (place sz p) fgi) m1 u1 B G Hp ltac:(lia) N4 T3 T4) |]. intros [m2 u2] (Q1 & Q2 & Q3 & Q4 & Q5). cbn [fst snd] in *.
    assert (Eset : SubsenseFrame.set1 fg0 (place sz p) fgi (place sz p) = fgi) by (unfold SubsenseFrame.set1; now rewrite Z.eqb_refl). rewrite Eset in Q5.
    exists fgi, (negb (flat s)). cbn [ok fst snd]. split; [ reflexivity |].
    assert (Lc : Z.of_nat (length (cur s)) = k) by apply (cur_bytes _ _ _ _ B G). assert (Ld : Z.of_nat (length (desc s)) = k) by apply (desc_textures _ _ _ _ B G).
    split.
    - split; cbn [lev dict glob order px]; auto.
      + destruct N4 as [E1 E2]. split; cbn [seen ldesc].
        * apply (store_ok (fun x => 0 <= x <= 255)); auto. apply (cur_bytes _ _ _ _ B G).
        * apply (store_ok (fun x => 0 <= x < 2 ^ 16)); auto. apply (desc_textures _ _ _ _ B G).
      + rewrite <- N1. exact Q1.
      + intros i Hi'. unfold SubsenseFrame.set1. destruct (Z.eqb_spec i (place sz p)) as [-> | Hne].
        * destruct (in_dec _ _ _) as [_|E]; [| exfalso; apply E; now left ]. apply feedback_ok; auto; [| rewrite <- N1; exact Gbt ]. apply normalized_ok; auto. fold bg. intros E. apply (Hnb E).
        * specialize (N10 i Hi'). destruct (in_dec Z.eq_dec i (place sz p :: done)) as [[E|E]|E]; [ congruence | |]; destruct (in_dec Z.eq_dec i done) as [E'|E']; auto; [ contradiction | exfalso; apply E; now right ].
    - split; cbn [lev order dil seen]; auto.
      + exists s. split; [ exact G |]. split; [ exact Gt |]. split; [ exact Gb |]. split; [ rewrite Gf; destruct (s_bits _ _ _ _ G) as [-> _]; now rewrite (s_desc _ _ _ _ G) |]. split; [ rewrite Gi, Gbt; reflexivity |]. split; [ exists w0; auto |].
        fold near. cbv zeta. split; [ intros H; apply T7, Hbg, H |]. split.
        { intros E. destruct bg eqn:Ebg; [ destruct (proj1 Hbg eq_refl); auto | right; right; apply T8; auto ]. }
        split.
        { destruct bg eqn:Ebg; [ destruct (proj1 Hbg eq_refl); auto |]. right. right. destruct (flat s) eqn:Efl; [ right; split; auto | now left ]. }
        exists prs, (sdict z), m1. split; [ exact Z4 |]. split; [ exact Z7 |]. split.
        { destruct Z8 as [[_ E]|(pr & x & E1 & _ & E2)]; [| exists pr, x; auto ]. subst prs. apply Permutation_length in Z4. rewrite Lr in Z4. cbn in Z4. lia. }
        split; [ exact Z5 |]. split; [ exact Z6 |]. split; [ exact Z3 |]. split; [ exact T5 |]. split.
        { destruct T10 as [E|(E1 & E2 & E3)]; [ now left | right ]. destruct (Hnb E1) as (H1 & H2 & H3). split; [ intros H; assert (bg = true) by (apply Hbg; now left); congruence |]. auto. }
        cbn [dict]. split; [ exact Q3 |]. split; [ exact Q4 |]. intros E M. destruct bg eqn:Ebg; [ rewrite T7 in E by reflexivity; discriminate |]. destruct (Hnb eq_refl) as (_ & H2 & _). apply Q5; auto.
      + intros p' x Hp' Hx. destruct (SubsensePixel.store1_at (sub c) rnd sz Hrnd ltac:(cbn; lia) (seen st) p (cur s) p' x Lc (inner_image _ _ Hp) Hp' Hx) as [(-> & E)|(Hne & E)]; change (SubsenseFrame.ch (sub c)) with k in E; rewrite E.
        * rewrite Z.eqb_refl, (s_cur _ _ _ _ G). now apply nth_map_zrange.
        * rewrite (proj2 (Z.eqb_neq _ _)); [ reflexivity |]. intros E'. apply Hne. eapply place_inj; [ exact Hp' | apply inner_image; exact Hp | exact E' ].
  Qed.

  (* ------------------------------------------------------------------ the global words grow old *)
  Lemma blurred_nonneg w h (m : Z -> Q) a : (forall x, 0 <= m x)%Q -> (0 <= blurred w h m a)%Q.
  Proof.
    intros H. unfold blurred. rewrite Qred_correct. apply Qle_shift_div_l; [ lra |]. rewrite Qmult_0_l.
    set (f := fun t d => _). assert (G : forall l x, (0 <= x)%Q -> (0 <= fold_left f l x)%Q).
    { induction l as [|d l IH]; intros x Hx; cbn [fold_left]; [ exact Hx |]. apply IH. unfold f. specialize (H (Z.max 0 (Z.min (h - 1) (a / w + fst d)) * w + Z.max 0 (Z.min (w - 1) (a mod w + snd d)))). lra. }
    apply G. lra.
  Qed.
  Lemma map_sum_nonneg (m : Z -> Q) : (forall x, 0 <= m x)%Q -> (0 <= map_sum sc m)%Q.
  Proof.
    intros H. unfold map_sum. assert (G : forall l x, (0 <= x)%Q -> (0 <= fold_left (fun x a => Qred (x + m a)) l x)%Q).
    { induction l as [|d l IH]; intros x Hx; cbn [fold_left]; [ exact Hx |]. apply IH. rewrite Qred_correct. specialize (H d). lra. }
    apply G. lra.
  Qed.
  Lemma zero_good w : bytes k (gcol w) -> 0 <= gbits w <= 48 -> good_gword {| gcol := gcol w; gbits := gbits w; gweight := 0; gmap := zero_map |}.
  Proof. intros A B. split; [ exact A |]. split; [ exact B |]. split; [ apply Qle_refl |]. eexists. split; [ reflexivity |]. intros a. apply Qle_refl. Qed.
  Lemma age_ok recalc update clr w : good_gword w -> ok good_gword (age sc recalc update clr w).
  Proof.
    intros W. unfold age. apply (ok_bind good_gword).
    - destruct (recalc && _); [| exact W ]. destruct W as (A & B & C & m & Em & Hm). rewrite Em. cbn [ok]. destruct (Qltb _ 1).
      + apply zero_good; auto.
      + split; [ exact A |]. split; [ exact B |]. split; [ now apply map_sum_nonneg |]. exists m. auto.
    - intros w1 (A & B & C & m & Em & Hm). destruct (update && _); [| split; eauto ]. rewrite Em. split; [ exact A |]. split; [ exact B |].
      split; [ cbn [gweight]; rewrite Qred_correct; lra |]. eexists. split; [ reflexivity |]. intros a. unfold weaken. apply blurred_nonneg. intros x. specialize (Hm x). destruct (downscaled _ _ _); lra.
  Qed.
  Lemma age_word_ok recalc update clr x g : (x < globals c)%nat -> glob_ok g -> gfull g -> ok (fun g' => glob_ok g' /\ gfull g') (age_word sc recalc update clr x g).
  Proof.
    intros Hx Hg Hf. pose proof Hg as [G1 G2 G3]. unfold age_word. assert (Ht : 0 <= Z.of_nat x < len g) by lia. destruct (val g (Z.of_nat x)) as [w|] eqn:Ew; [| exfalso; apply (Hf _ Ht Ew) ].
    rewrite (word_ok g (Z.of_nat x) w G1 Ht Ew). cbn [obind]. eapply ok_bind; [ apply age_ok; eapply (cells_val _ g); eauto |]. intros w1 W1. cbv beta in W1.
    destruct (put_ok g (Z.of_nat x) w1 G1 Ht ltac:(congruence)) as (g1 & E1 & S1 & (_ & _ & Sl) & V1 & _). rewrite E1. cbn [obind]. destruct (put_glob g (Z.of_nat x) w1 g1 Hg Hf W1 ltac:(lia) E1) as [Hg1 Hf1].
    destruct (Nat.eqb_spec x 0) as [->|Hx0]; [ split; assumption |].
    assert (Ht' : 0 <= Z.of_nat x - 1 < len g1) by lia. destruct (val g1 (Z.of_nat x - 1)) as [w0|] eqn:E0; [| exfalso; apply (Hf1 _ Ht' E0) ]. rewrite (word_ok g1 (Z.of_nat x - 1) w0 S1 Ht' E0). cbn [obind].
    destruct (weightier w1 w0); [| split; assumption ]. destruct (swap_ok g1 (Z.of_nat x) S1 ltac:(lia) ltac:(lia)) as (g2 & E2 & S2 & (_ & _ & Sl2) & V2). rewrite E2. cbn [ok].
    destruct Hg1 as [H1 H2 H3]. split; [ split; [ exact S2 | lia | eapply swap_cells; eauto ] |]. intros t Htt. rewrite V2 by lia. unfold upd. destruct (t =? _); [ apply Hf1; lia |]. destruct (t =? _); apply Hf1; lia.
  Qed.

  (* ------------------------------------------------------------------ the frame-level component *)
  Definition live_ok (q : Z) (st : state) : Prop := state_ok c sc q st /\ 0 <= cool (lev st).
  Lemma packed_full (g : store gword) : len g = Z.of_nat (globals c) -> gfull g -> packed g 0 (globals c).
  Proof. intros L F t u H1 H2 H3. exfalso. apply (F t); [ lia | exact H3 ]. Qed.
  Lemma refreshed q base frac force st : live_ok q st -> 0 <= base -> (0 <= frac <= 1)%Q -> safe (4940 < q) (fun st' => live_ok q st' /\ lev st' = lev st /\ px st' = px st) (refreshModel c rnd sc base frac force st).
  Proof.
    intros [[I1 I2 I3 I4 I5 I6 I7 I8 I9] Hc] Hb Hf.
    destruct (refreshModel_ok c rnd sc Hrnd Hk Hmost Hglob Hminc Hsc st base frac force q I1 I2 I3 I4 (or_introl I5) I6 (packed_full _ (g_len _ _ I6) I7) I8 I9 Hb) as [[Hno _]|[_ H]]; [ contradiction |].
    eapply safe_mono; [ exact H |]. intros st' [A (B1 & B2 & B3 & B4 & B5 & B6)]. split; [ split; [ exact A | now rewrite B6 ] | auto ].
  Qed.
  Lemma with_lev_ok q l st : live_ok q st -> frame l = frame (lev st) -> 0 <= woff l -> 0 <= cool l -> live_ok q (with_lev l st).
  Proof.
    intros [[I1 I2 I3 I4 I5 I6 I7 I8 I9] Hc] F O C. split; [| exact C ]. split; cbn [lev with_lev dict glob order px]; auto; try (rewrite F; assumption). destruct I3. split; assumption.
  Qed.
  Lemma camera_ok q a b st : live_ok q st -> safe (4940 < q) (fun st' => live_ok q st' /\ frame (lev st') = frame (lev st)) (camera c rnd sc a b st).
  Proof.
    intros H. pose proof H as [[I1 I2 _ _ _ _ _ _ _] Hc]. unfold camera. destruct (negb _); [ split; auto |]. destruct (_ && _).
    - eapply safe_mono; [ apply refreshed; [ apply with_lev_ok; [ exact H | reflexivity | cbn; lia | exact Hc ] | lia | lra ] |]. intros st' (A & B & _). split; [ exact A | now rewrite B ].
    - destruct (_ && _); [| split; auto ]. eapply safe_mono; [ apply refreshed; [ apply with_lev_ok; [ exact H | reflexivity | cbn; lia | exact Hc ] | lia | lra ] |]. intros st' (A & B & _). split; [ exact A | now rewrite B ].
  Qed.
  Lemma reset_ok q r x st : live_ok q st -> 0 <= x -> safe (4940 < q) (fun st' => live_ok q st' /\ frame (lev st') = frame (lev st)) (reset c rnd sc r x st).
  Proof.
    intros H Hx. pose proof H as [[I1 I2 _ _ _ _ _ _ _] Hc]. unfold reset. destruct (1000 <? _); [ split; [ apply with_lev_ok; auto | reflexivity ] |]. destruct (_ && _).
    - eapply safe_bind; [ apply refreshed; [ apply with_lev_ok; [ exact H | reflexivity | exact I2 | exact Hc ] | apply Z.div_pos; lia | lra ] |]. intros s (A & B & C). cbn [safe]. cbn [with_lev lev] in B.
      destruct A as [[J1 J2 J3 J4 J5 J6 J7 J8 J9] Jc]. rewrite B in *. cbn [frame woff] in *. split; [ split; [| exact Hx ] | reflexivity ]. split; cbn [lev frame woff dict glob order px]; auto.
      + destruct J3. split; assumption.
      + intros i Hi. destruct (J9 i Hi) as [P1 P2 P3 P4]. split; cbn [SubsenseFrame.with_rate Subsense.rate Subsense.radius Subsense.modulator Subsense.min_lt Subsense.min_st Subsense.raw_lt Subsense.raw_st Subsense.final_lt Subsense.final_st]; auto. lra.
    - destruct (_ <=? _); [ split; auto |]. split; [ apply with_lev_ok; auto | reflexivity ].
  Qed.
  Lemma frame_level_ok q r a b x st : live_ok q st -> 0 <= x -> safe (4940 < q) (fun st' => live_ok q st' /\ frame (lev st') = frame (lev st)) (frame_level c rnd sc r a b x st).
  Proof.
    intros H Hx. pose proof H as [[I1 I2 _ _ _ _ _ _ _] Hc]. unfold frame_level. set (st0 := with_lev _ st). assert (H0 : live_ok q st0) by (apply with_lev_ok; auto).
    assert (F0 : frame (lev st0) = frame (lev st)) by reflexivity.
    eapply safe_bind with (P := fun s => live_ok q s /\ frame (lev s) = frame (lev st)).
    - destruct (_ || moving _); [| split; auto ]. eapply safe_bind; [ apply camera_ok; exact H0 |]. intros s [A B]. eapply safe_mono; [ apply reset_ok; auto |]. intros s' [C D]. split; [ exact C | congruence ].
    - intros s [A B]. cbn [safe]. split; [| exact B ]. pose proof A as [[_ J2 _ _ _ _ _ _ _] Jc]. apply with_lev_ok; auto. cbn. destruct (Z.ltb_spec 0 (cool (lev s))); lia.
  Qed.

  Lemma refresh_rest base frac force st st' : refreshModel c rnd sc base frac force st = Done st' -> seen st' = seen st /\ lev st' = lev st.
  Proof.
    unfold refreshModel. destruct (_ || _); [ discriminate |]. cbv zeta. repeat match goal with |- obind ?o _ = Done _ -> _ => destruct o; cbn [obind]; try discriminate end. intros E. injection E as <-. split; reflexivity.
  Qed.
  Lemma camera_keeps a b st st' : camera c rnd sc a b st = Done st' -> seen st' = seen st /\ lut (lev st') = lut (lev st) /\ frame (lev st') = frame (lev st) /\ (frame (lev st) mod 500 <> 0 -> st' = st).
  Proof.
    unfold camera. destruct (Z.eqb_spec (frame (lev st) mod 500) 0) as [E|E]; cbn [negb]; [| intros H; injection H as <-; auto ]. destruct (_ && _ && _); [| destruct (_ && _ && _) ]; intros H.
    - apply refresh_rest in H. destruct H as [-> ->]. split; [ reflexivity |]. split; [ reflexivity |]. split; [ reflexivity |]. contradiction.
    - apply refresh_rest in H. destruct H as [-> ->]. split; [ reflexivity |]. split; [ reflexivity |]. split; [ reflexivity |]. contradiction.
    - injection H as <-. auto.
  Qed.
  Lemma reset_keeps r x st st' : reset c rnd sc r x st = Done st' -> seen st' = seen st /\ lut (lev st') = lut (lev st) /\ woff (lev st') = woff (lev st) /\ moving (lev st') = moving (lev st) /\
    ((r < inject_Z 45)%Q -> dict st' = dict st /\ glob st' = glob st).
  Proof.
    unfold reset. destruct (1000 <? _); [ intros H; injection H as <-; cbn; auto 6 |]. destruct (Qle_bool (inject_Z 45) r) eqn:E; cbn [andb].
    - destruct (cool (lev st) =? 0).
      + destruct (refreshModel _ _ _ _ _ _ _) as [s| | |] eqn:R; cbn [obind]; try discriminate. intros H. injection H as <-. apply refresh_rest in R. destruct R as [R _]. cbn [seen lev lut woff moving with_lev] in *. split; [ exact R |]. do 3 (split; [ reflexivity |]).
        intros L. apply Qle_bool_iff in E. exfalso. lra.
      + destruct (_ <=? _); intros H; injection H as <-; cbn; auto 6.
    - destruct (_ <=? _); intros H; injection H as <-; cbn; auto 6.
  Qed.
  (* without a refresh, the frame-level component changes only what is kept of the level *)
  Lemma frame_level_keeps r a b x st st' : frame_level c rnd sc r a b x st = Done st' -> seen st' = seen st /\ lut (lev st') = lut (lev st) /\
    ((r < inject_Z 45)%Q -> frame (lev st) mod 500 <> 0 -> dict st' = dict st /\ glob st' = glob st /\ woff (lev st') = woff (lev st) /\ moving (lev st') = moving (lev st)).
  Proof.
    unfold frame_level. set (st0 := with_lev _ st). intros H.
    assert (A : exists s, (if auto (lev st) || Qle_bool (inject_Z 90) r || moving (lev st) then obind (camera c rnd sc a b st0) (reset c rnd sc r x) else Done st0) = Done s /\
      seen st' = seen s /\ lut (lev st') = lut (lev s) /\ dict st' = dict s /\ glob st' = glob s /\ woff (lev st') = woff (lev s) /\ moving (lev st') = moving (lev s)).
    { destruct (if auto (lev st) || Qle_bool (inject_Z 90) r || moving (lev st) then _ else _) as [s| | |]; cbn [obind] in H; try discriminate. injection H as <-. exists s. cbn. auto 8. }
    destruct A as (s & E & -> & -> & -> & -> & -> & ->). destruct (_ || _ || _).
    - destruct (camera c rnd sc a b st0) as [s1| | |] eqn:Ec; cbn [obind] in E; try discriminate. apply camera_keeps in Ec. apply reset_keeps in E. destruct Ec as (C1 & C2 & C3 & C4), E as (D1 & D2 & D3 & D4 & D5).
      split; [ rewrite D1, C1; reflexivity |]. split; [ rewrite D2, C2; reflexivity |]. intros L M. specialize (C4 M). subst s1. destruct (D5 L) as [-> ->]. rewrite D3, D4. cbn. auto.
    - injection E as <-. cbn. auto 7.
  Qed.

  (* ------------------------------------------------------------------ a frame *)
  Inductive chain (R : Z * Z -> state -> bool -> state -> Prop) : list (Z * Z) -> state -> list (Z * bool) -> state -> Prop :=
  | chain_nil st : chain R [] st [] st
  | chain_snoc l st m st1 ji fg st2 : chain R l st m st1 -> R ji st1 fg st2 -> chain R (l ++ [ji]) st (m ++ [(snd ji, fg)]) st2.
  Definition acts (now : Z) (img : Z -> Z) (ov : Z) (ji : Z * Z) (st : state) (fg : bool) (st' : state) : Prop := exists p done, inner sz p /\ snd ji = place sz p /\ In (place sz p) (pxs sc) /\ 0 <= fst ji < N /\ mid now done st /\ ~ In (place sz p) done /\ deed img ov p (fst ji * Z.of_nat n) st fg st'.

  Lemma numbered_pxs : map snd (numbered sc) = pxs sc.
  Proof.
    unfold numbered. assert (G : forall (l' l : list Z), length l' = length l -> map snd (combine l' l) = l). { induction l' as [|y l' IH]; intros [|x l] E; try discriminate; [ reflexivity |]. cbn [combine map snd]. f_equal. apply IH. now injection E. }
    apply G. unfold zrange. rewrite zseq_length. lia.
  Qed.
  Lemma pixels_ok now ov img al as_ st : byte_image img -> ov_ok ov -> Spec.Subsense.unit al -> Spec.Subsense.unit as_ -> 1 <= now -> mid now [] st ->
    safe (4940 < now) (fun r => map fst (fst (fst r)) = pxs sc /\ mid now (rev (pxs sc)) (snd r) /\ chain (acts now img ov) (numbered sc) st (SubsenseFrame.raw (fst (fst r))) (snd r))
      (each (apply_pixel c rnd ov sc img al as_) (numbered sc) ([], fun _ => false, st)).
  Proof.
    intros B Hov Ha Has Hnow Hm.
    eapply safe_mono; [ apply (safe_each_pre (4940 < now) (fun d r => map fst (fst (fst r)) = map snd d /\ mid now (rev (map snd d)) (snd r) /\ chain (acts now img ov) d st (SubsenseFrame.raw (fst (fst r))) (snd r)) _ (numbered sc) []) |].
    - intros d [j i] r [[out fg0] s] E (I1 & I2 & I3). cbn [fst snd app] in *.
      assert (Hin : In (j, i) (numbered sc)) by (rewrite E; apply in_or_app; right; now left).
      destruct (numbered_in c rnd sc Hrnd Hmost Hglob _ _ Hin) as (Hj & Hi & _). destruct (sc_listed sc Hsc i Hi) as (p & Hp & ->).
      assert (Hnd : ~ In (place sz p) (rev (map snd d))).
      { rewrite <- in_rev. intros C. pose proof (sc_nodup sc Hsc) as D. rewrite <- numbered_pxs, E, map_app in D. cbn [map snd] in D. apply NoDup_remove_2 in D. apply D. apply in_or_app. now left. }
      eapply safe_mono; [ apply (apply_pixel_ok now ov img al as_ j p (rev (map snd d)) out fg0 s); auto |]. intros [[out' fg'] s'] (fg & nzb & E1 & E2 & E3). cbn [fst snd] in *. subst out'.
      split; [ rewrite !map_app, I1; reflexivity |]. split; [ rewrite map_app, rev_app_distr; exact E2 |].
      unfold SubsenseFrame.raw. rewrite map_app. cbn [map fst snd]. apply (chain_snoc (acts now img ov) d st _ s (j, place sz p) fg s' I3). exists p, (rev (map snd d)). cbn [fst snd]. split; [ exact Hp |]. split; [ reflexivity |]. split; [ exact Hi |]. split; [ exact Hj |]. split; [ exact I2 |]. split; [ exact Hnd | exact E3 ].
    - cbn [fst snd map rev]. split; [ reflexivity |]. split; [ exact Hm | constructor ].
    - intros r. cbn [app]. now rewrite numbered_pxs.
  Qed.

  Lemma apply_ok ov r a b img st : byte_image img -> ov_ok ov -> 8 <= avgs c -> live_ok (frame (lev st)) st ->
    let now := frame (lev st) + 1 in
    safe (4940 < now) (fun x => map fst (fst x) = pxs sc /\ live_ok now (snd x) /\ frame (lev (snd x)) = now /\
      exists s s', lev s = {| frame := now; woff := woff (lev st); moving := moving (lev st); auto := auto (lev st); since := since (lev st); cool := cool (lev st); lut := lut (lev st); nz := nz (lev st) |} /\
        dict s = dict st /\ glob s = glob st /\ order s = order st /\ seen s = seen st /\ px s = px st /\ chain (acts now img ov) (numbered sc) s (fst x) s' /\
        exists z st2, frame_level c rnd sc r a b z st2 = Done (snd x) /\ dict st2 = dict s' /\ seen st2 = seen s' /\ frame (lev st2) = now /\ moving (lev st2) = moving (lev st) /\ auto (lev st2) = auto (lev st) /\
          woff (lev st2) = woff (lev st) /\ (exists x y, lut (lev st2) = adapt c x y (lut (lev st))))
      (apply c rnd ov r a b sc img st).
  Proof.
    intros B Hov Hav [[I1 I2 I3 I4 I5 I6 I7 I8 I9] Hc] now. unfold apply. fold now. set (lt := if now <=? 500 then avgs c / 2 else avgs c).
    assert (L1 : 4 <= lt) by (unfold lt; destruct (now <=? 500); [ apply Z.div_le_lower_bound; lia | lia ]). assert (L2 : 1 <= lt / 4) by (apply Z.div_le_lower_bound; lia).
    destruct (Subsense.factor_some now lt ltac:(lia) ltac:(lia)) as (al & E1). destruct (Subsense.factor_some now (lt / 4) ltac:(lia) ltac:(lia)) as (as_ & E2). rewrite E1, E2.
    destruct (Subsense.factor_in now lt al ltac:(lia) ltac:(lia) E1) as (A1 & A2 & _). destruct (Subsense.factor_in now (lt / 4) as_ ltac:(lia) ltac:(lia) E2) as (A3 & A4 & _).
    assert (U1 : Spec.Subsense.unit al) by (unfold Spec.Subsense.unit; lra). assert (U2 : Spec.Subsense.unit as_) by (unfold Spec.Subsense.unit; lra).
    set (l1 := {| frame := now; woff := _; moving := _; auto := _; since := _; cool := _; lut := _; nz := _ |}).
    assert (Hmid : mid now [] (with_lev l1 st)).
    { split; cbn [with_lev lev l1 frame woff cool dict glob order px]; auto.
      - destruct I3. split; assumption.
      - destruct I4 as [D1 D2 D3]. split; auto. intros x Hx. eapply good_later; [| apply D3; exact Hx ]. lia.
      - intros i Hi. cbn. replace (now - 1) with (frame (lev st)) by lia. auto. }
    eapply safe_bind; [ apply (pixels_ok now ov img al as_ _ B Hov U1 U2 ltac:(lia) Hmid) |]. intros [[out fg] s] (P1 & [N1 N2 N3 N4 N5 N6 N7 N8 N9 N10] & P3). cbn [fst snd] in *.
    eapply safe_bind; [ apply safe_ok, (ok_each (fun g => glob_ok g /\ gfull g)); [| split; [ exact N7 | exact N8 ] ] |].
    { intros x g Hx [H1 H2]. apply in_seq in Hx. apply age_word_ok; auto; lia. }
    intros g [G1 G2]. cbv beta in *.
    eapply safe_bind with (P := fun o => forall i, places (o i)).
    { destruct (_ =? 0); [| exact N9 ]. apply safe_ok. apply (sorted_ok c sc Hmost Hglob Hsc g (order s) G1 G2 N9). }
    intros o Ho. eapply safe_bind_eq; [ apply (frame_level_ok now) |].
    - split; [| exact Hc ]. split; cbn [lev frame woff dict glob order px]; auto; try lia.
      + destruct N4. split; assumption.
      + intros i Hi. specialize (N10 i Hi). destruct (in_dec _ _ _) as [_|E]; [| exfalso; apply E; rewrite <- in_rev; exact Hi ]. destruct N10 as [Q1 Q2 Q3 Q4].
        unfold SubsenseFrame.close_pixel. split; cbn [Subsense.rate Subsense.radius Subsense.modulator Subsense.min_lt Subsense.min_st Subsense.raw_lt Subsense.raw_st Subsense.final_lt Subsense.final_st]; auto.
        destruct (I9 i Hi) as [_ _ _ Q5]. repeat match goal with H : Forall _ (_ :: _) |- _ => inversion H; clear H; subst end.
        assert (U : Spec.Subsense.unit (if filtered c (SubsenseFrame.raw out) i then 1 else 0)%Q) by (unfold Spec.Subsense.unit; destruct (filtered _ _ _); lra).
        repeat (constructor; [ first [ assumption | apply Subsense.roll_unit; assumption ] |]). constructor.
    - lia.
    - intros s2 Es2 [H1 H2]. cbn [safe fst snd]. split; [ unfold SubsenseFrame.raw; rewrite map_map; cbn; rewrite <- P1; reflexivity |]. split; [ exact H1 |]. split; [ exact H2 |].
      exists (with_lev l1 st), s. cbn [with_lev lev dict glob order seen px]. repeat (split; [ reflexivity |]). split; [ exact P3 |]. eexists. eexists. split; [ exact Es2 |]. cbn [lev dict seen frame moving auto woff lut]. repeat (split; [ reflexivity |]). eexists. eexists. reflexivity.
  Qed.

  Definition event_ok (e : event) : Prop := match e with Frame img ov _ _ _ => byte_image img /\ ov_ok ov | Refresh base _ _ => 0 <= base end.
  Definition frames (l : list event) : Z := Z.of_nat (length (filter (fun e => match e with Frame _ _ _ _ _ => true | _ => false end) l)).
  Lemma play_ok : 8 <= avgs c -> forall l st, Forall event_ok l -> live_ok (frame (lev st)) st ->
    safe (4940 < frame (lev st) + frames l) (fun st' => live_ok (frame (lev st')) st' /\ frame (lev st') = frame (lev st) + frames l) (play c rnd sc l st).
  Proof.
    intros Hav. assert (Hmon : forall (S : Type) (K K' : Prop) (P : S -> Prop) o, (K -> K') -> safe K P o -> safe K' P o) by (intros S K K' P [| | | []] H; cbn; auto).
    induction l as [|e l IH]; intros st Hl Hs; cbn [play].
    - split; [ exact Hs |]. unfold frames. cbn. lia.
    - inversion Hl as [|? ? He Hl']; subst. destruct e as [img ov r a b|base frac force]; cbn [act event_ok] in *.
      + destruct He as [B Hov]. assert (Ef : frames (Frame img ov r a b :: l) = 1 + frames l) by (unfold frames; cbn [filter length]; lia). pose proof (Zle_0_nat (length (filter (fun e => match e with Frame _ _ _ _ _ => true | _ => false end) l))) as Hfl. fold (frames l) in Hfl.
        pose proof (apply_ok ov r a b img st B Hov Hav Hs) as H. cbv zeta in H. destruct (apply _ _ _ _ _ _ _ _ _) as [x| | |f]; cbn [safe obind] in *; try contradiction; [| destruct f; auto; lia ].
        destruct H as (_ & H2 & H3 & _). eapply Hmon; [| eapply safe_mono; [ apply (IH (snd x) Hl') |] ].
        * rewrite H3. lia.
        * rewrite H3. exact H2.
        * intros st' [A1 A2]. split; [ exact A1 | lia ].
      + assert (Ef : frames (Refresh base frac force :: l) = frames l) by reflexivity. pose proof (Zle_0_nat (length (filter (fun e => match e with Frame _ _ _ _ _ => true | _ => false end) l))) as Hfl. fold (frames l) in Hfl.
        destruct Hs as [[I1 I2 I3 I4 I5 I6 I7 I8 I9] Hc].
        destruct (refreshModel_ok c rnd sc Hrnd Hk Hmost Hglob Hminc Hsc st base frac force (frame (lev st)) I1 I2 I3 I4 (or_introl I5) I6 (packed_full _ (g_len _ _ I6) I7) I8 I9 He) as [[_ E]|[Hf _]].
        * rewrite E, Ef. apply IH; [ exact Hl' |]. split; [ split; assumption | exact Hc ].
        * pose proof (refreshed (frame (lev st)) base frac force st (conj (Build_state_ok c sc _ _ I1 I2 I3 I4 I5 I6 I7 I8 I9) Hc) He Hf) as H.
          destruct (refreshModel _ _ _ _ _ _ _) as [x| | |f]; cbn [safe] in *; try contradiction; [| destruct f; auto; lia ].
          destruct H as (H1 & H2 & _). rewrite Ef, <- H2. apply IH; [ exact Hl' | rewrite H2; exact H1 ].
  Qed.
End Frame.
