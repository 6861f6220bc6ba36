From Coq Require Import ZArith NArith QArith Qround Qminmax List Bool Lia Lqa Sorting.Permutation.
From Verif Require Import Lib.Grid Model.Bits Model.Distances Model.Sampling Model.Simd Model.Lbsp Model.RoiTable Model.Pbas Spec.Bits Spec.Simd Spec.Lbsp Proofs.Bits Proofs.Lbsp
  Proofs.Sampling Spec.RoiTable Proofs.RoiTable Spec.Distances Proofs.Distances Spec.Vibe.
From Verif Require Spec.Subsense Proofs.Subsense Spec.SubsenseFrame Proofs.SubsensePixel Proofs.SubsenseRun Proofs.LobsterRun.
From Verif Require Import Proofs.Vibe Proofs.Lobster.
From Verif Require Import Spec.Vibe Model.Lobster Spec.Lobster Model.WordDict Proofs.WordDict Model.Pawcs.
From Verif Require Model.SubsenseFrame.
From Verif Require Import Proofs.Pawcs Proofs.PawcsFrame.
Import ListNotations.
Open Scope Z_scope.

Section Run.
  Context (c : config) (rnd : nat -> Z) (Hrnd : forall k, 0 <= rnd k) (Hk : ch c = 1 \/ ch c = 3) (Hmost : (0 < most c)%nat) (Hglob : (0 < globals c)%nat) (Hminc : 0 <= minc c).

  Lemma start_ok : pixel_ok 0 start.
  Proof. split; cbn; try (split; (discriminate || reflexivity)). repeat constructor; cbn; discriminate. Qed.

  Definition small (sz : Z * Z) : Prop := fst sz < 8 \/ snd sz < 8.
  Lemma initialize_ok auto0 u0 current given sz img : byte_image img ->
    match initialize_roi 2 current given (snd sz) (fst sz) with
    | None => initialize c rnd (nothing no_word, nothing no_gword, auto0, u0) current given sz img = Refused
    | Some r => if (fst sz <? 8) || (snd sz <? 8) then initialize c rnd (nothing no_word, nothing no_gword, auto0, u0) current given sz img = Thrown
                else exists st, initialize c rnd (nothing no_word, nothing no_gword, auto0, u0) current given sz img = Done ({| size := sz; roi := data r; pxs := RoiTable.lut (tables_of r (ch c) img) |}, st) /\
                  scene_ok {| size := sz; roi := data r; pxs := RoiTable.lut (tables_of r (ch c) img) |} /\
                  live_ok c {| size := sz; roi := data r; pxs := RoiTable.lut (tables_of r (ch c) img) |} 0 st /\ frame (lev st) = 0
    end.
  Proof.
    intros B. unfold initialize. destruct (initialize_roi 2 current given (snd sz) (fst sz)) as [r|] eqn:ER; [| reflexivity ].
    destruct (away_all 2 current given _ _ r ltac:(lia) ER) as (R & Cc & Nz & A). destruct (nonzero_pos r Nz) as (y0 & x0 & I0 & _). rewrite R, Cc in I0. unfold inside in I0. cbn [fst snd] in I0.
    set (pxs0 := RoiTable.lut (tables_of r (ch c) img)).
    assert (L : LobsterRun.listed sz pxs0).
    { intros i I. unfold pxs0 in I. apply lut_in in I. destruct I as (Ii & D). unfold data in D. rewrite Cc in *. rewrite R in *.
      assert (W : 0 < fst sz) by lia. pose proof (Z.mod_pos_bound i (fst sz) W) as X. pose proof (Z.div_mod i (fst sz) ltac:(lia)) as Y.
      assert (Zi : 0 <= i / fst sz < snd sz) by (split; [ apply Z.div_pos; lia | apply Z.div_lt_upper_bound; nia ]).
      exists (i mod fst sz, i / fst sz). split; [ | unfold place; cbn [fst snd]; lia ].
      specialize (A (i / fst sz) (i mod fst sz) ltac:(split; cbn [fst snd]; lia) D). unfold away, inner in *. cbn [fst snd] in *. lia. }
    set (sc := {| size := sz; roi := data r; pxs := pxs0 |}).
    assert (Hsc : scene_ok sc).
    { split; cbn [size roi pxs sc].
      - apply LobsterRun.increasing_nodup, lut_increasing.
      - exact L.
      - intros p Hp D. apply lut_in. split; [| exact D ]. rewrite R, Cc. pose proof (place_range sz p (inner_image _ _ Hp)). lia. }
    destruct (SubsenseRun.listed_points sz pxs0 L) as [Ep Fp]. set (pts := map (point sz) pxs0) in *.
    assert (Nd : NoDup pts). { apply (NoDup_map_inv (place sz)). rewrite <- Ep. apply LobsterRun.increasing_nodup, lut_increasing. }
    destruct (SubsenseRun.first_desc_ok (sub c) rnd sz Hrnd ltac:(cbn; lia) Hk img B pts (fun _ => 0) Fp Nd ltac:(intros; lia)) as (ld & Ed & D1 & _). rewrite <- Ep in Ed. rewrite Ed. cbn [access obind].
    assert (E8 : forall x, 0 < x -> (x / 8 =? 0) = (x <? 8)).
    { intros x Hx. pose proof (Z.div_mod x 8 ltac:(lia)). pose proof (Z.mod_pos_bound x 8 ltac:(lia)). destruct (Z.ltb_spec x 8), (Z.eqb_spec (x / 8) 0); lia. }
    rewrite !E8 by lia. destruct ((fst sz <? 8) || (snd sz <? 8)); [ reflexivity |].
    cbn [fst snd]. set (N0 := Z.of_nat (length pxs0) * Z.of_nat (locals c)).
    destruct (renew_sound (blank c) no_word N0 ltac:(lia)) as (S1 & S2 & S3 & S4). destruct (renew_sound (gblank c) no_gword (Z.of_nat (globals c)) ltac:(lia)) as (T1 & T2 & T3 & T4).
    set (st0 := {| dict := _; glob := _; order := _; illum := _; used := _; seen := _; ldesc := _; px := _; dil := _; lev := _ |}).
    assert (Hseen : seen_ok st0).
    { split; cbn [seen ldesc st0]; [| exact D1 ]. intros i. destruct (Nat.lt_ge_cases (Z.to_nat i) (length (RoiTable.last (tables_of r (ch c) img)))) as [Hl|Hl].
      - pose proof (LobsterRun.last_bytes (SubsenseFrame.shape (sub c)) ltac:(cbn; lia) r img B) as F. rewrite Forall_forall in F. apply F, nth_In. exact Hl.
      - rewrite nth_overflow by exact Hl. lia. }
    destruct (refreshModel_ok c rnd sc Hrnd Hk Hmost Hglob Hminc Hsc st0 1 0 false 0) as [[Hno _]|[_ H]]; cbn [st0 lev frame woff dict glob order px]; try lia; try exact Hseen.
    - split; [ exact S1 | exact S2 |]. intros a Ha. rewrite S4 in Ha. lia.
    - right. split; [ now right |]. intros j Hj t u _ _ _. apply S3.
    - split; [ exact T1 | exact T2 |]. intros a Ha. rewrite T4 in Ha. lia.
    - intros t u _ _ _. apply T3.
    - intros i. apply Permutation_refl.
    - intros i _. apply start_ok.
    - exfalso. apply Hno. lra.
    - destruct (refreshModel c rnd sc 1 0 false st0) as [st| | |f]; cbn [safe] in H; try contradiction; [| destruct f; try contradiction; lia ].
      destruct H as [H1 (_ & _ & _ & _ & _ & H2)]. exists st. split; [ reflexivity |]. split; [ exact Hsc |]. split; [ split; [ exact H1 | rewrite H2; cbn; lia ] | rewrite H2; reflexivity ].
  Qed.
End Run.
