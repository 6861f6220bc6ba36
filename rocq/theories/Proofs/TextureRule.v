(* When the thresholds of textures change: by the share of pixels that have texture. *)
From Coq Require Import ZArith NArith QArith List Bool Lia Lqa.
From Verif Require Import Lib.Grid Model.Bits Model.Distances Model.Sampling Model.Simd Model.Lbsp Model.RoiTable Model.Pbas Spec.Bits Spec.Simd Spec.Lbsp Spec.Vibe Spec.Lobster.
From Verif Require Import Proofs.Bits Proofs.Lbsp Proofs.Distances Proofs.Vibe Proofs.Lobster Proofs.SubsensePixel Model.Lobster Spec.Lobster.
From Verif Require Model.Subsense Model.Pawcs Spec.Pawcs Model.WordDict Proofs.Pawcs Proofs.PawcsFrame Proofs.PawcsSpec.
From Verif Require Import Model.SubsenseFrame.
From Verif Require Spec.SubsenseFrame Proofs.SubsenseRun.
Import ListNotations.
Open Scope Z_scope.

Lemma tex_contrast c size lut img p x : (0 < count c)%nat -> byte_image img ->
  Z.of_N (ones 16 (Z.to_N (tex c size lut img p x))) = Grid.count (fun y => lut (value (ch c) size img p x) <? Z.abs (y - value (ch c) size img p x)) (around (ch c) size img p x).
Proof.
  intros Hn B. rewrite PawcsSpec.ones_differing. change 0%N with (Z.to_N 0).
  rewrite (PawcsSpec.mismatch_differing (around (ch c) size img p x) (value (ch c) size img p x) (lut (value (ch c) size img p x))); [ apply PawcsSpec.mismatch_zero, PawcsSpec.around_length | apply PawcsSpec.around_length | | lia ].
  apply (tex_ok c size Hn lut img p x B).
Qed.
Section Rule.
  Context (c : config) (rnd : nat -> Z) (size : Z * Z) (Hrnd : forall k, 0 <= rnd k) (Hn : (0 < count c)%nat) (Hk : ch c = 1 \/ ch c = 3).
  Definition has_texture (lut img : Z -> Z) (i : Z) : bool := (if ch c =? 1 then 2 else 4) <=? Spec.Pawcs.contrast (ch c) lut size img (point size i).
  Lemma textured_is lut img p : byte_image img -> textured c (map (tex c size lut img p) (zrange 0 (ch c))) = Some ((if ch c =? 1 then 2 else 4) <=? Spec.Pawcs.contrast (ch c) lut size img p).
  Proof.
    intros B. unfold textured. rewrite (map_all _ (fun d => ones 16 (Z.to_N d))) by (intros; apply popcount_ones; lia). cbn [bind]. f_equal. f_equal. unfold Spec.Pawcs.contrast, Spec.Pawcs.total. f_equal. rewrite !map_map. apply map_ext. intros x. apply tex_contrast; assumption.
  Qed.
  Lemma pixels_textured ov img al as_ : byte_image img -> forall pts st out s, Forall (inner size) pts -> apply_pixels c rnd ov size img al as_ (map (place size) pts) st = Done (out, s) ->
    map (fun x => snd (snd x)) out = map (fun p => (if ch c =? 1 then 2 else 4) <=? Spec.Pawcs.contrast (ch c) (lut st) size img p) pts /\ nz s = nz st /\ lut s = lut st.
  Proof.
    intros B. induction pts as [|p pts IH]; intros st out s F; cbn [map apply_pixels]; [ intros E; injection E as <- <-; auto |]. inversion F as [|? ? Fp Fr]; subst.
    destruct (apply_pixel _ _ _ _ _ _ _ _ _) as [[b s1]| | |] eqn:E1; cbn [obind fst snd]; try discriminate. destruct (apply_pixels _ _ _ _ _ _ _ _ _) as [[o1 s2]| | |] eqn:E2; cbn [obind fst snd]; try discriminate. intros E. injection E as <- <-.
    unfold apply_pixel in E1. rewrite (describe_ok c rnd size Hrnd Hn Hk (lut st) img p B Fp) in E1. cbn [access obind fst snd] in E1. rewrite (textured_is (lut st) img p B) in E1.
    repeat match type of E1 with obind ?o _ = _ => lazymatch o with access (Some _) => fail | _ => destruct o; cbn [obind fst snd] in E1; try discriminate end end.
    cbn [access obind] in E1.
    injection E1 as <- <-. destruct (IH _ _ _ Fr E2) as (A1 & A2 & A3). cbn [lut nz] in *. cbn [map fst snd]. rewrite A1. auto.
  Qed.
  (* the share of pixels with texture, and what becomes of the thresholds *)
  Definition share (lut img : Z -> Z) (pts : list (Z * Z)) : Q :=
    (inject_Z (Grid.count (fun p => (if ch c =? 1 then 2 else 4) <=? Spec.Pawcs.contrast (ch c) lut size img p) pts) / inject_Z (Z.of_nat (length pts)))%Q.
  Lemma filter_count {A B} (f : A -> bool) (g : B -> bool) l l' : map f l = map g l' -> length (filter f l) = length (filter g l') /\ length l = length l'.
  Proof.
    revert l'. induction l as [|a l IH]; intros [|b l']; cbn [map]; try discriminate; [ auto |]. intros E. injection E as E1 E2. destruct (IH _ E2) as [A1 A2]. cbn [filter length]. rewrite E1. destruct (g b); cbn [length]; lia.
  Qed.
  Lemma apply_rule ov ratio pts img st m st' : byte_image img -> Forall (inner size) pts -> apply c rnd ov ratio size (map (place size) pts) img st = Done (m, st') ->
    nz st' = share (lut st) img pts /\ lut st' = adapt c (nz st') (nz st) (lut st).
  Proof.
    intros B F. unfold apply. destruct (Subsense.factor _ _) as [al|]; [ | discriminate ]. destruct (Subsense.factor _ _) as [as_|]; [ | discriminate ].
    match goal with |- obind ?o _ = _ -> _ => destruct o as [[a s]| | |] eqn:E end; cbn [obind]; try discriminate. cbn [fst snd]. destruct (pixels_textured ov img al as_ B pts _ _ _ F E) as (A1 & A2 & A3). cbn [lut nz] in A1, A2, A3.
    destruct (_ && _); [ discriminate | ].
    match goal with |- obind ?o _ = _ -> _ => destruct o as [rg| | |] end; cbn [obind]; try discriminate.
    match goal with |- obind ?o _ = _ -> _ => destruct o as [m2| | |] end; cbn [obind]; try discriminate.
    intros X. injection X as _ <-. cbn [lut nz]. rewrite A2, A3. split; [| reflexivity ]. unfold textured_ratio, share, Grid.count. destruct (filter_count _ _ _ _ A1) as [-> ->]. reflexivity.
  Qed.
End Rule.

Lemma adapt_rule c now before l t : Spec.SubsenseFrame.table c l -> 0 <= t <= 255 ->
    ((before < 1 # 10)%Q /\ (now < 1 # 10)%Q -> adapt c now before l t = if least c t <? l t then l t - 1 else l t) /\
    ((1 # 2 < before)%Q /\ (1 # 2 < now)%Q -> adapt c now before l t = if l t <? most c then l t + 1 else l t) /\
    (((1 # 10 <= before)%Q \/ (1 # 10 <= now)%Q) /\ ((before <= 1 # 2)%Q \/ (now <= 1 # 2)%Q) -> adapt c now before l t = l t).
Proof.
  intros T Ht. pose proof (SubsenseRun.table_byte c l t T Ht) as R. pose proof (T t Ht) as Bd.
  assert (L : 0 <= least c t) by apply SubsenseRun.sat_range. assert (Mo : most c <= 255) by apply SubsenseRun.sat_range.
  assert (Q1 : forall a b, Qltb a b = true <-> (a < b)%Q). { intros a b. unfold Qltb. rewrite negb_true_iff, <- not_true_iff_false, Qle_bool_iff. lra. }
  assert (Q2 : forall a b, Qltb a b = false <-> (b <= a)%Q). { intros a b. unfold Qltb. rewrite negb_false_iff, Qle_bool_iff. lra. }
  unfold adapt. split; [| split ].
  - intros [H1 H2]. apply Q1 in H1. apply Q1 in H2. rewrite H1, H2. cbn [andb]. destruct (Z.ltb_spec (least c t) (l t)); auto. apply SubsenseRun.wrap8_id. lia.
  - intros [H1 H2]. assert (N : Qltb now (1 # 10) = false) by (apply Q2; lra). rewrite N. cbn [andb]. apply Q1 in H1. apply Q1 in H2. rewrite H1, H2. cbn [andb]. destruct (Z.ltb_spec (l t) (most c)); auto. apply SubsenseRun.wrap8_id. lia.
  - intros [H1 H2]. assert (N : Qltb now (1 # 10) && Qltb before (1 # 10) = false). { apply andb_false_iff. rewrite !Q2. tauto. } rewrite N.
    assert (N' : Qltb (1 # 2) now && Qltb (1 # 2) before = false). { apply andb_false_iff. rewrite !Q2. tauto. } now rewrite N'.
Qed.
