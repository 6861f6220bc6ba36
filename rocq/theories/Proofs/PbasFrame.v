From Coq Require Import ZArith QArith Qround Qminmax List Bool Lia Lqa.
From Verif Require Import Lib.Grid Model.Distances Model.Sampling Spec.Vibe Proofs.Vibe Model.Vibe Model.Pbas Model.PbasFrame
  Spec.Subsense Proofs.Subsense Spec.PbasFrame.
From Verif Require Proofs.Pbas.
From Verif Require Import Model.Pbas Model.PbasFrame Spec.Vibe.
Import ListNotations.
Open Scope Z_scope.

(* ------------------------------------------------------------------ places *)

Lemma flat_range size p : in_image size p -> 0 <= flat size p < fst size * snd size.
Proof. intros [Hx Hy]. unfold flat. split; nia. Qed.

Lemma point_flat size p : in_image size p -> point size (flat size p) = p.
Proof.
  intros [Hx Hy]. unfold point, flat. destruct p as [x y]. cbn [fst snd] in *. f_equal.
  - rewrite Z.add_comm, Z.mul_comm, Z_mod_plus_full. apply Z.mod_small. lia.
  - rewrite Z.add_comm, Z.mul_comm, Z_div_plus_full by lia. rewrite Z.div_small by lia. lia.
Qed.

Lemma flat_inj size p q : in_image size p -> in_image size q -> flat size p = flat size q -> p = q.
Proof. intros Hp Hq E. rewrite <- (point_flat size p Hp), <- (point_flat size q Hq), E. reflexivity. Qed.

Lemma store_cases {A} (m : nat -> Z -> A) s i v s' i' : (store m s i v s' i' = v /\ s' = s /\ i' = i) \/ store m s i v s' i' = m s' i'.
Proof. unfold store. destruct (Nat.eqb_spec s' s), (Z.eqb_spec i' i); cbn; auto. Qed.

Lemma store_same {A} (m : nat -> Z -> A) s i v : store m s i v s i = v.
Proof. unfold store. rewrite Nat.eqb_refl, Z.eqb_refl. reflexivity. Qed.

Lemma offset_flat m size f p : gapless m size f -> in_image size p -> offset m size f p = flat size p.
Proof.
  intros G [Hx Hy]. unfold offset. destruct m; auto. destruct (G eq_refl) as [-> |H]; unfold flat; auto.
  assert (snd p = 0) by lia. rewrite H0. lia.
Qed.

(* ------------------------------------------------------------------ distances *)

Lemma L1_range a b d : L1dist 8 a b = Some d -> 0 <= d <= 255.
Proof.
  unfold L1dist. destruct (sop _ _) as [x|]; cbn [bind]; [ | discriminate ]. destruct (sop _ _) as [y|]; cbn [bind]; [ | discriminate ].
  intros E. injection E as <-. unfold uconv. pose proof (Z.mod_pos_bound y (2 ^ 8) ltac:(reflexivity)). change (2 ^ 8) with 256 in *. lia.
Qed.

Lemma radicand_range v b q : L2dist_radicand 8 v b = Some q -> 0 <= q < 65536.
Proof.
  unfold L2dist_radicand. change (2 * 8) with 16. assert (G : forall v b acc, 0 <= acc < 65536 -> L2sqrdist_arr 8 16 v b acc = Some q -> 0 <= q < 65536).
  { clear. induction v as [|x v IH]; intros b acc A; cbn [L2sqrdist_arr]; [ intros E; injection E as <-; auto | ].
    destruct b as [|y b]; [ intros E; injection E as <-; auto | ].
    destruct (L2sqrdist 8 x y) as [d|]; cbn [bind]; [ | discriminate ]. apply IH. unfold uconv. apply Z.mod_pos_bound. reflexivity. }
  apply G. lia.
Qed.

Lemma channel_range m v b : rooted m -> (0 <= channel_dist m v b <= longest m)%Q.
Proof.
  intros R. unfold channel_dist, longest. destruct m as [|root].
  - destruct (L1dist 8 (hd 0 v) (hd 0 b)) as [d|] eqn:E; [ | lra ]. apply L1_range in E.
    split; [ apply (inject_le 0) | apply (inject_le d 255) ]; lia.
  - destruct R as [_ R]. destruct (L2dist_radicand 8 v b) as [q|] eqn:E; [ | lra ]. apply R, (radicand_range v b). auto.
Qed.

Lemma dist_range m n v g b : rooted m -> (20 <= n)%Q -> (0 <= fst (dist m n v g b))%Q /\ (0 <= snd (dist m n v g b) <= longest m)%Q.
Proof.
  intros R N. unfold dist. cbn [fst snd]. pose proof (channel_range m g (snd b) R). pose proof (channel_range m v (fst b) R).
  split; [ | lra ]. assert (0 <= 10 / n)%Q by (apply Qle_shift_div_l; lra).
  assert (0 <= 10 / n * channel_dist m g (snd b))%Q by (apply Qmult_le_0_compat; lra). lra.
Qed.

Lemma too_far_range thr req bound l : (0 <= bound)%Q -> Forall (fun dg => 0 <= snd dg <= bound)%Q l -> forall good sum n sum' n', too_far thr req l good sum n = (sum', n') ->
  n <= n' /\ (sum <= sum' <= sum + inject_Z (n' - n) * bound)%Q.
Proof.
  intros B0. induction l as [|[d g] l IH]; intros F good sum n sum' n'; cbn [too_far].
  - intros E. injection E as <- <-. rewrite Z.sub_diag. change (inject_Z 0) with 0%Q. split; [ lia | lra ].
  - inversion F as [|? ? H1 H2]; subst. cbn [snd] in H1.
    destruct (Nat.ltb good req); [ | intros E; injection E as <- <-; rewrite Z.sub_diag; change (inject_Z 0) with 0%Q; split; [ lia | lra ] ].
    destruct (Qle_bool _ _); intros E; apply IH in E; auto. destruct E as [E1 E2]. split; [ lia | ].
    replace (n' - n) with ((n' - (n + 1)) + 1) by lia. rewrite inject_Z_plus. change (inject_Z 1) with 1%Q. lra.
Qed.

(* ------------------------------------------------------------------ one pixel *)

Section Run.
  Context (c : setup) (rnd : nat -> Z) (size : Z * Z) (Hrnd : forall k, 0 <= rnd k) (Hn : (0 < samples (loop c))%nat) (Hroot : rooted (mode_of c)).

  Definition distances (f : frame) (st : state) (p : Z * Z) : list (Q * Q) :=
    map (fun s => dist (mode_of c) (norm st) (value f p) (grad f p) (bg st s (flat size p))) (seq 0 (samples (loop c))).

  Record effect (f : frame) (st : state) (p : Z * Z) (fg : bool) (st' : state) : Prop := {
    e_step : exists k, step (loop c) (map fst (distances f st p)) (fb st (flat size p)) = (fg, k, fb st' (flat size p));
    e_other : forall i, i <> flat size p -> fb st' i = fb st i;
    e_norm : norm st' = norm st;
    e_sum : too_far (radius (fb st (flat size p)) * inject_Z (threshold (loop c))) (required (loop c)) (distances f st p) 0 (gsum st) (bads st) = (gsum st', bads st');
    e_fg : fg = true -> bg st' = bg st /\ used st' = used st;
    e_bg : forall s i, bg st' s i = bg st s i \/
      (fg = false /\ (s < samples (loop c))%nat /\ exists q, in_image size q /\ within 1 q p /\ i = flat size q /\ bg st' s i = (value f q, grad f q)) }.

  Lemma assign_same {A} (m : Z -> A) i v : assign m i v i = v.
  Proof. unfold assign. rewrite Z.eqb_refl. reflexivity. Qed.
  Lemma assign_other {A} (m : Z -> A) i v j : j <> i -> assign m i v j = m j.
  Proof. unfold assign. destruct (Z.eqb_spec j i); tauto. Qed.

  Lemma apply_pixel_effect f st p : gapless (mode_of c) size f -> in_image size p ->
    exists fg st', apply_pixel c rnd size f st p = Some (fg, st') /\ effect f st p fg st'.
  Proof.
    intros G Hp. unfold apply_pixel. rewrite (offset_flat _ _ _ _ G Hp).
    destruct (Z.ltb_spec (flat size p) (fst size * snd size)); [ cbn [negb] | pose proof (flat_range size p Hp); lia ].
    rewrite (point_flat size p Hp). fold (distances f st p).
    destruct (step (loop c) (map fst (distances f st p)) (fb st (flat size p))) as [[fg rate] px] eqn:ST.
    destruct (too_far _ _ _ _ _ _) as [sum n] eqn:T.
    assert (I : forall k, (Z.to_nat (rnd k mod Z.of_nat (samples (loop c))) < samples (loop c))%nat).
    { intros k. pose proof (Z.mod_pos_bound (rnd k) (Z.of_nat (samples (loop c))) ltac:(lia)). lia. }
    assert (S0 : within 1 p p) by (unfold within; lia).
    destruct fg.
    - eexists _, _. split; [ reflexivity | ]. split; cbn [fb bg norm gsum bads used]; auto.
      + exists rate. rewrite assign_same. auto.
      + intros i Hi. apply assign_other; auto.
    - cbn [used bg fb norm gsum bads]. set (st1 := if rnd (used st) mod _ =? 0 then _ else _).
      assert (H1 : forall s i, bg st1 s i = bg st s i \/
        ((s < samples (loop c))%nat /\ exists q, in_image size q /\ within 1 q p /\ i = flat size q /\ bg st1 s i = (value f q, grad f q))).
      { intros s i. subst st1. destruct (rnd (used st) mod _ =? 0); cbn [bg]; auto.
        match goal with |- context[store ?a ?b ?cc ?d s i] => destruct (store_cases a b cc d s i) as [(-> & -> & ->)| -> ] end; auto.
        right. split; auto. exists p. auto. }
      assert (H2 : fb st1 = assign (fb st) (flat size p) px /\ norm st1 = norm st /\ gsum st1 = sum /\ bads st1 = n).
      { subst st1. destruct (rnd (used st) mod _ =? 0); cbn; auto. }
      destruct H2 as (F1 & F2 & F3 & F4). clearbody st1.
      destruct (rnd (used st1) mod _ =? 0).
      + destruct (neighbour_near (rnd (S (used st1))) p size (Hrnd _) Hp) as (q & -> & Hq & Wq).
        eexists _, _. split; [ reflexivity | ]. split; cbn [fb bg norm gsum bads used]; rewrite ?F1, ?F2, ?F3, ?F4; auto.
        * exists rate. rewrite assign_same. auto.
        * intros i Hi. apply assign_other; auto.
        * discriminate.
        * intros s i. match goal with |- context[store ?a ?b ?cc ?d s i] => destruct (store_cases a b cc d s i) as [(-> & -> & ->)| -> ] end.
          -- right. split; auto. split; auto. exists q. auto.
          -- destruct (H1 s i) as [E|(A & B)]; auto.
      + eexists _, _. split; [ reflexivity | ]. split; cbn [fb bg norm gsum bads used]; rewrite ?F1, ?F2, ?F3, ?F4; auto.
        * exists rate. rewrite assign_same. auto.
        * intros i Hi. apply assign_other; auto.
        * discriminate.
        * intros s i. destruct (H1 s i) as [E|(A & B)]; auto.
  Qed.

  (* ------------------------------------------------------------------ several pixels *)

  Lemma pixels_app f a : forall b st, apply_pixels c rnd size f (a ++ b) st =
    match apply_pixels c rnd size f a st with
    | None => None
    | Some (m, st1) => match apply_pixels c rnd size f b st1 with None => None | Some (m', st2) => Some (m ++ m', st2) end
    end.
  Proof.
    induction a as [|p a IH]; intros b st; cbn [app apply_pixels].
    - destruct (apply_pixels c rnd size f b st) as [[m st2]|]; reflexivity.
    - destruct (apply_pixel c rnd size f st p) as [[fg st1]|]; auto. rewrite IH.
      destruct (apply_pixels c rnd size f a st1) as [[m st2]|]; auto.
      destruct (apply_pixels c rnd size f b st2) as [[m' st3]|]; reflexivity.
  Qed.

  Record run (f : frame) (l : list (Z * Z)) (st : state) (m : list ((Z * Z) * bool)) (st' : state) : Prop := {
    r_points : map fst m = l;
    r_bg : forall s i, bg st' s i = bg st s i \/
      ((s < samples (loop c))%nat /\ exists p q, In (p, false) m /\ in_image size q /\ within 1 q p /\ i = flat size q /\ bg st' s i = (value f q, grad f q));
    r_norm : norm st' = norm st;
    r_sum : (20 <= norm st)%Q -> bads st <= bads st' /\ (gsum st <= gsum st' <= gsum st + inject_Z (bads st' - bads st) * longest (mode_of c))%Q;
    r_fg : (forall p fg, In (p, fg) m -> fg = true) -> bg st' = bg st /\ used st' = used st;
    r_fb : forall i, (forall p, In p l -> flat size p <> i) -> fb st' i = fb st i }.

  Lemma distances_range f st p : (20 <= norm st)%Q -> Forall (fun dg => 0 <= fst dg /\ 0 <= snd dg <= longest (mode_of c))%Q (distances f st p).
  Proof.
    intros N. apply Forall_forall. intros x I. apply in_map_iff in I. destruct I as (s & <- & _). apply dist_range; auto.
  Qed.

  Lemma longest_pos : (0 <= longest (mode_of c))%Q.
  Proof. unfold longest. destruct (mode_of c); lra. Qed.

  Lemma pixels_run f l : gapless (mode_of c) size f -> (forall p, In p l -> in_image size p) -> forall st,
    exists m st', apply_pixels c rnd size f l st = Some (m, st') /\ run f l st m st'.
  Proof.
    intros G. induction l as [|p l IH]; intros Hl st; cbn [apply_pixels].
    - exists [], st. split; auto. split; cbn; auto. intros _. rewrite Z.sub_diag. change (inject_Z 0) with 0%Q. pose proof longest_pos. split; [ lia | lra ].
    - destruct (apply_pixel_effect f st p G (Hl p (or_introl eq_refl))) as (fg & st1 & -> & E).
      destruct (IH ltac:(intros; apply Hl; right; auto) st1) as (m & st2 & -> & R).
      exists ((p, fg) :: m), st2. split; auto. destruct E as [E1 E2 E3 E4 E5 E6], R as [R1 R2 R3 R4 R5 R6].
      split.
      + cbn. rewrite R1. reflexivity.
      + intros s i. destruct (R2 s i) as [A|(A & p' & q & B & B')].
        * rewrite A. destruct (E6 s i) as [C|(C1 & C2 & q & C3)]; [ left; auto | right ]. split; auto. exists p, q. subst fg. split; [ left; auto | auto ].
        * right. split; auto. exists p', q. split; [ right; auto | auto ].
      + congruence.
      + intros N. rewrite E3 in R4. destruct (R4 N) as [A B].
        pose proof (too_far_range _ _ (longest (mode_of c)) (distances f st p) longest_pos
          ltac:(eapply Forall_impl; [ | apply distances_range; auto ]; intros ? [_ X]; exact X) _ _ _ _ _ E4) as [C D].
        split; [ lia | ]. replace (bads st2 - bads st) with ((bads st2 - bads st1) + (bads st1 - bads st)) by lia. rewrite inject_Z_plus.
        rewrite Qmult_plus_distr_l. lra.
      + intros A. destruct R5 as [B1 B2]; [ intros q fq I; apply (A q fq); right; auto | ].
        destruct E5 as [C1 C2]; [ apply (A p fg); left; auto | ]. split; congruence.
      + intros i A. rewrite R6 by (intros q I; apply A; right; auto). apply E2. intros ->. apply (A p); [ left; auto | auto ].
  Qed.

  Definition opened (st : state) : state := {| bg := bg st; fb := fb st; norm := norm st; gsum := 0; bads := 1; used := used st |}.

  Lemma frame_run f st : gapless (mode_of c) size f ->
    exists m st', apply c rnd size f st = Some (m, st') /\
      (20 <= norm st' /\ (20 <= norm st -> norm st' <= longest (mode_of c)))%Q /\
      exists st1, run f (raster size) (opened st) m st1 /\ apply_pixels c rnd size f (raster size) (opened st) = Some (m, st1) /\ bg st' = bg st1 /\ fb st' = fb st1 /\ used st' = used st1.
  Proof.
    intros G. unfold apply. fold (opened st).
    destruct (pixels_run f (raster size) G ltac:(intros p I; apply raster_in; auto) (opened st)) as (m & st1 & -> & R).
    eexists _, _. split; [ reflexivity | ]. cbn [norm bg fb used]. split; [ | exists st1; auto ].
    split; [ destruct (Qltb _ 20) eqn:Q; [ lra | apply Qltb_false in Q; auto ] | ].
    intros N. destruct (r_sum _ _ _ _ _ R N) as [A B]. cbn [gsum bads opened] in A, B.
    assert (L : (20 <= longest (mode_of c))%Q) by (unfold longest; destruct (mode_of c); lra).
    destruct (Qltb _ 20); auto. apply Qle_shift_div_r.
    - apply (inject_lt 0). lia.
    - assert (inject_Z (bads st1 - 1) <= inject_Z (bads st1))%Q by (apply inject_le; lia).
      assert (inject_Z (bads st1 - 1) * longest (mode_of c) <= inject_Z (bads st1) * longest (mode_of c))%Q by (apply Qmult_le_compat_r; lra). lra.
  Qed.

  (* ------------------------------------------------------------------ stored values *)

  Lemma init_fold f l : forall st, (forall sp, In sp l -> in_image size (snd sp)) ->
    let st' := fold_left (init_one rnd size f) l st in
    norm st' = norm st /\ fb st' = fb st /\
    forall s p, in_image size p -> ((exists q, in_image size q /\ within 3 p q /\ bg st s (flat size p) = (value f q, grad f q)) \/ In (s, p) l) ->
      exists q, in_image size q /\ within 3 p q /\ bg st' s (flat size p) = (value f q, grad f q).
  Proof.
    induction l as [|sp l IH]; intros st Hl; cbn [fold_left].
    - split; auto. split; auto. intros s p Hp [H|[]]; auto.
    - destruct (IH (init_one rnd size f st sp) ltac:(intros; apply Hl; right; auto)) as (A & B & C). split; [ rewrite A; reflexivity | ]. split; [ rewrite B; reflexivity | ].
      intros s p Hp H. apply C; auto.
      destruct (sample_near (rnd (used st)) (snd sp) size (Hrnd _) (Hl sp (or_introl eq_refl))) as [Q1 Q2].
      unfold init_one. cbn [bg].
      match goal with |- context[store ?a ?b ?cc ?d s (flat size p)] => destruct (store_cases a b cc d s (flat size p)) as [(E & Es & Ep)|E] end.
      + left. rewrite E. apply flat_inj in Ep; auto; [ | apply Hl; left; auto ]. subst. eexists; eauto.
      + destruct H as [H|[H|H]]; auto; rewrite E; auto. subst sp. cbn [fst snd] in *. rewrite store_same in E. left. rewrite <- E. eexists; eauto.
  Qed.

  Lemma init_facts f : let st := initialize c rnd size f in
    norm st = 20%Q /\ (forall i, fb st i = start (first_rate c)) /\
    forall s p, (s < samples (loop c))%nat -> in_image size p -> observed size f [] p (bg st s (flat size p)).
  Proof.
    unfold initialize. destruct (init_fold f (list_prod (seq 0 (samples (loop c))) (raster size))
      {| bg := fun _ _ => ([], []); fb := fun _ => Pbas.start (first_rate c); norm := 20; gsum := 0; bads := 1; used := 0 |}) as (A & B & C).
    - intros [s' p'] I. apply in_prod_iff in I. apply raster_in. tauto.
    - split; auto. split; [ intros i; rewrite B; reflexivity | ]. intros s p Hs Hp. left. apply C; auto.
      right. apply in_prod_iff. split; [ apply in_seq; lia | apply raster_in; auto ].
  Qed.

  Record past (first : frame) (later : list frame) (st : state) : Prop := {
    p_norm : (20 <= norm st <= longest (mode_of c))%Q;
    p_bg : forall s p, (s < samples (loop c))%nat -> in_image size p -> observed size first later p (bg st s (flat size p));
    p_fb : forall p, in_image size p -> exists ds, length ds = length later /\ Forall (Forall (fun d => 0 <= d)%Q) ds /\
      fb st (flat size p) = Pbas.play (loop c) ds (start (first_rate c)) }.

  Lemma play_app fs : forall gs p, Pbas.play (loop c) (fs ++ gs) p = Pbas.play (loop c) gs (Pbas.play (loop c) fs p).
  Proof. induction fs as [|f fs IH]; intros; cbn [app Pbas.play]; auto. Qed.

  Lemma observed_more first later p v f : observed size first later p v -> observed size first (later ++ [f]) p v.
  Proof. intros [H|(g & I & E)]; [ left; auto | right ]. exists g. split; [ apply in_or_app; auto | auto ]. Qed.

  Lemma past_start first : past first [] (initialize c rnd size first).
  Proof.
    destruct (init_facts first) as (A & B & C). split; auto.
    - rewrite A. unfold longest. destruct (mode_of c); lra.
    - intros p Hp. exists []. rewrite B. auto.
  Qed.

  Lemma raster_split p : in_image size p -> exists pre post, raster size = pre ++ p :: post /\ (forall q, In q pre -> q <> p) /\ (forall q, In q post -> q <> p).
  Proof.
    intros Hp. apply raster_in in Hp. destruct (in_split _ _ Hp) as (pre & post & E). exists pre, post. split; auto.
    pose proof (raster_nodup size) as N. rewrite E in N. apply NoDup_remove_2 in N.
    split; intros q I ->; apply N, in_or_app; auto.
  Qed.

  (* the processing of a pixel inside of that of its frame *)
  Lemma frame_at f st p : gapless (mode_of c) size f -> in_image size p ->
    exists m st' pre post st1 fg st2, apply c rnd size f st = Some (m, st') /\ raster size = pre ++ p :: post /\
      (exists m1, apply_pixels c rnd size f pre (opened st) = Some (m1, st1) /\ run f pre (opened st) m1 st1) /\
      effect f st1 p fg st2 /\ In (p, fg) m /\ (forall fg', In (p, fg') m -> fg' = fg) /\
      fb st1 (flat size p) = fb st (flat size p) /\ norm st1 = norm st /\ fb st' (flat size p) = fb st2 (flat size p).
  Proof.
    intros G Hp. destruct (frame_run f st G) as (m & st' & A & _ & st3 & R & P & _ & F & _).
    destruct (raster_split p Hp) as (pre & post & E & N1 & N2).
    assert (In1 : forall q, In q pre -> in_image size q) by (intros q I; apply raster_in; rewrite E; apply in_or_app; auto).
    assert (In2 : forall q, In q post -> in_image size q) by (intros q I; apply raster_in; rewrite E; apply in_or_app; right; right; auto).
    destruct (pixels_run f pre G In1 (opened st)) as (m1 & st1 & P1 & R1).
    destruct (apply_pixel_effect f st1 p G Hp) as (fg & st2 & P2 & E2).
    destruct (pixels_run f post G In2 st2) as (m2 & st4 & P4 & R4).
    rewrite E in P. rewrite pixels_app, P1 in P. cbn [apply_pixels] in P. rewrite P2, P4 in P. injection P as <- <-.
    exists (m1 ++ (p, fg) :: m2), st', pre, post, st1, fg, st2. split; auto. split; auto. split; [ eauto | ]. split; auto.
    split; [ apply in_or_app; right; left; auto | ].
    split.
    { intros fg' I. apply in_app_or in I. destruct I as [I|[I|I]]; [ | congruence | ].
      - apply (in_map fst) in I. rewrite (r_points _ _ _ _ _ R1) in I. destruct (N1 _ I); auto.
      - apply (in_map fst) in I. rewrite (r_points _ _ _ _ _ R4) in I. destruct (N2 _ I); auto. }
    split.
    { rewrite (r_fb _ _ _ _ _ R1); [ reflexivity | ]. intros q I C. apply flat_inj in C; auto. destruct (N1 _ I); auto. }
    split; [ rewrite (r_norm _ _ _ _ _ R1); reflexivity | ].
    rewrite F. apply (r_fb _ _ _ _ _ R4). intros q I C. apply flat_inj in C; auto. destruct (N2 _ I); auto.
  Qed.

  Lemma past_frame first later st f m st' : gapless (mode_of c) size f -> past first later st -> apply c rnd size f st = Some (m, st') -> past first (later ++ [f]) st'.
  Proof.
    intros G [[N1 N2] B F] A. destruct (frame_run f st G) as (m0 & st0 & A0 & N & st1 & R & _ & Eb & Ef & _).
    assert (E0 : (m0, st0) = (m, st')) by congruence. injection E0 as -> ->. split.
    - destruct N as [N N']. auto.
    - intros s p Hs Hp. rewrite Eb. destruct (r_bg _ _ _ _ _ R s (flat size p)) as [E|(_ & p' & q & _ & Hq & _ & E & V)].
      + rewrite E. cbn [bg opened]. apply observed_more. auto.
      + apply flat_inj in E; auto. subst q. right. exists f. split; [ apply in_or_app; right; left; auto | auto ].
    - intros p Hp. destruct (F p Hp) as (ds & L & P & E).
      destruct (frame_at f st p G Hp) as (m1 & st2 & pre & post & st3 & fg & st4 & A1 & _ & _ & [ [k ES] _ _ _ _ _ ] & _ & _ & E3 & E4 & E5).
      assert (E0 : (m1, st2) = (m, st')) by congruence. injection E0 as -> ->.
      exists (ds ++ [map fst (distances f st3 p)]). split; [ rewrite !app_length, L; reflexivity | ]. split.
      + apply Forall_app. split; auto. apply Forall_cons; auto. apply Forall_forall. intros d I. apply in_map_iff in I. destruct I as (dg & <- & I).
        pose proof (distances_range f st3 p ltac:(rewrite E4; auto)) as D. rewrite Forall_forall in D. apply D; auto.
      + rewrite E5, play_app, <- E, <- E3. cbn [Pbas.play]. rewrite ES. reflexivity.
  Qed.

  Lemma past_play first : forall frames later st st', Forall (gapless (mode_of c) size) frames -> past first later st ->
    play c rnd size frames st = Some st' -> past first (later ++ frames) st'.
  Proof.
    induction frames as [|f fs IH]; intros later st st' G P; cbn [play].
    - intros E. injection E as <-. rewrite app_nil_r. auto.
    - inversion G; subst. destruct (apply c rnd size f st) as [[m st1]|] eqn:A; [ | discriminate ].
      intros E. change (f :: fs) with ([f] ++ fs). rewrite app_assoc. eapply IH; eauto. eapply past_frame; eauto.
  Qed.

  Lemma play_defined : forall frames st, Forall (gapless (mode_of c) size) frames -> exists st', play c rnd size frames st = Some st'.
  Proof.
    induction frames as [|f fs IH]; intros st G; cbn [play]; [ eauto | ]. inversion G; subst.
    destruct (frame_run f st H1) as (m & st' & -> & _). apply IH; auto.
  Qed.

  Lemma past_run first frames st : Forall (gapless (mode_of c) size) frames -> play c rnd size frames (initialize c rnd size first) = Some st -> past first frames st.
  Proof. intros G P. apply (past_play first frames [] _ st G (past_start first) P). Qed.

  (* ------------------------------------------------------------------ faults *)

  Lemma pixels_fault f l p : In p l -> (forall st, apply_pixel c rnd size f st p = None) -> forall st, apply_pixels c rnd size f l st = None.
  Proof.
    intros I H. induction l as [|q l IH]; [ destruct I | ]. intros st. cbn [apply_pixels]. destruct I as [ -> |I].
    - rewrite H. reflexivity.
    - destruct (apply_pixel c rnd size f st q) as [[fg st1]|]; auto. rewrite IH; auto.
  Qed.

  Lemma defined f st : 0 < fst size -> 0 < snd size -> fst size <= stride f -> (apply c rnd size f st = None <-> ~ gapless (mode_of c) size f).
  Proof.
    intros W H S. split.
    - intros E G. destruct (frame_run f st G) as (m & st' & E' & _). congruence.
    - intros G. unfold apply. rewrite (pixels_fault f (raster size) (fst size - 1, snd size - 1)); auto.
      + apply raster_in. split; cbn; lia.
      + intros st0. unfold apply_pixel, offset. destruct (mode_of c) eqn:M; [ | destruct G; intros X; discriminate X ].
        cbn [fst snd]. destruct (Z.ltb_spec (stride f * (snd size - 1) + (fst size - 1)) (fst size * snd size)); [ | reflexivity ].
        exfalso. apply G. intros _. destruct (Z.eq_dec (stride f) (fst size)); auto. right.
        assert (fst size + 1 <= stride f) by lia. assert (X : snd size <= 1 \/ 2 <= snd size) by lia. destruct X; auto. nia.
  Qed.
End Run.

(* ------------------------------------------------------------------ decisions *)

Lemma at_least_map {A B} (g : A -> B) k (P : B -> Prop) l : at_least k P (map g l) <-> at_least k (fun a => P (g a)) l.
Proof.
  unfold at_least. split; intros (ks & N & L & H); exists ks; (split; [ auto | split; [ auto | ] ]); intros j I; destruct (H j I) as (s & E & Ps).
  - rewrite nth_error_map in E. destruct (nth_error l j) as [a|]; [ | discriminate ]. injection E as <-. eauto.
  - exists (g s). rewrite nth_error_map, E. auto.
Qed.

Lemma at_least_iff {A} k (P R : A -> Prop) l : (forall a, In a l -> (P a <-> R a)) -> at_least k P l <-> at_least k R l.
Proof.
  intros E. unfold at_least. split; intros (ks & N & L & H); exists ks; (split; [ auto | split; [ auto | ] ]); intros j I; destruct (H j I) as (s & J & Ps);
  exists s; (split; [ auto | ]); apply nth_error_In in J; apply E; auto.
Qed.

Lemma at_least_all {A} k (P : A -> Prop) l : (forall a, In a l -> P a) -> (k <= length l)%nat -> at_least k P l.
Proof.
  intros H L. exists (seq 0 k). split; [ apply seq_NoDup | split; [ apply seq_length | ] ]. intros j I. apply in_seq in I.
  destruct (nth_error l j) as [a|] eqn:E; [ exists a; split; auto; apply H; eapply nth_error_In; eauto | ].
  apply nth_error_None in E. lia.
Qed.

Lemma grey_dist n v g b : grey_pixel (v, g) -> grey_pixel b -> fst (dist Grey n v g b) = (10 / n * gap g (snd b) + gap v (fst b))%Q.
Proof.
  intros [[Lv Fv] [Lg Fg]] [[Lb Fb] [Lc Fc]]. cbn [fst snd] in *. unfold dist, channel_dist, gap. cbn [fst].
  destruct v as [|x [|? ?]], g as [|y [|? ?]], b as [[|x' [|? ?]] [|y' [|? ?]]]; try discriminate. cbn [fst snd] in *.
  inversion Fv; inversion Fg; inversion Fb; inversion Fc; subst. cbn [hd]. rewrite !L1_bytes by auto. reflexivity.
Qed.

Lemma decision c rnd size f st p : (forall k, 0 <= rnd k) -> (0 < samples (loop c))%nat -> mode_of c = Grey -> gapless Grey size f -> in_image size p ->
  exists m st' pre post m1 st1 fg, apply c rnd size f st = Some (m, st') /\ raster size = pre ++ p :: post /\
    apply_pixels c rnd size f pre {| bg := bg st; fb := fb st; norm := norm st; gsum := 0; bads := 1; used := used st |} = Some (m1, st1) /\
    (forall b, In (p, b) m <-> b = fg) /\
    (grey_pixel (value f p, grad f p) -> (forall s, (s < samples (loop c))%nat -> grey_pixel (bg st1 s (flat size p))) ->
     (fg = false <-> at_least (required (loop c)) (fun s => apart (norm st) (value f p, grad f p) (bg st1 s (flat size p)) <=
                                radius (fb st (flat size p)) * inject_Z (threshold (loop c)))%Q (seq 0 (samples (loop c))))).
Proof.
  intros Hr Hn M G Hp. rewrite <- M in G. assert (Ro : rooted (mode_of c)) by (rewrite M; exact I).
  destruct (frame_at c rnd size Hr Hn Ro f st p G Hp) as (m & st' & pre & post & st1 & fg & st2 & A & E & (m1 & P1 & R1) & [ [k ES] _ _ _ _ _ ] & I1 & I2 & E3 & E4 & E5).
  exists m, st', pre, post, m1, st1, fg. split; auto. split; auto. split; auto. split; [ intros b; split; [ auto | intros ->; auto ] | ].
  intros Gp Gs. rewrite <- E3. rewrite (Proofs.Pbas.pbas_decision _ _ _ _ _ _ ES). unfold distances. rewrite map_map, at_least_map. apply at_least_iff.
  intros s Is. apply in_seq in Is. rewrite M, grey_dist by (auto; apply Gs; lia). unfold apart. cbn [fst snd]. rewrite E4. reflexivity.
Qed.

Lemma familiar c rnd size first frames st f m st' p fg : (forall k, 0 <= rnd k) -> (0 < samples (loop c))%nat -> (required (loop c) <= samples (loop c))%nat ->
  rooted (mode_of c) -> 0 <= threshold (loop c) -> Forall (gapless (mode_of c) size) (frames ++ [f]) ->
  play c rnd size frames (initialize c rnd size first) = Some st -> apply c rnd size f st = Some (m, st') ->
  (forall v, observed size first (frames ++ [f]) p v ->
     (channel_dist (mode_of c) (grad f p) (snd v) / 2 + channel_dist (mode_of c) (value f p) (fst v) <= (57 # 100) * inject_Z (threshold (loop c)))%Q) ->
  In (p, fg) m -> fg = false.
Proof.
  intros Hr Hn Hq Ro Ht G P A Hobs Ip. apply Forall_app in G. destruct G as [G1 G2]. inversion G2 as [|? ? G _]; subst.
  pose proof (past_run c rnd size Hr Hn Ro first frames st G1 P) as [[N1 N2] B F].
  assert (Hp : in_image size p).
  { destruct (frame_run c rnd size Hr Hn Ro f st G) as (m0 & st0 & A0 & _ & st1 & R & _). assert (E : (m0, st0) = (m, st')) by congruence. injection E as -> ->.
    apply (in_map fst) in Ip. rewrite (r_points _ _ _ _ _ _ _ R) in Ip. apply raster_in. auto. }
  destruct (frame_at c rnd size Hr Hn Ro f st p G Hp) as (m0 & st0 & pre & post & st1 & fg0 & st2 & A0 & E & (m1 & P1 & R1) & [ [k ES] _ _ _ _ _ ] & I1 & I2 & E3 & E4 & E5).
  assert (EE : (m0, st0) = (m, st')) by congruence. injection EE as -> ->. rewrite (I2 fg Ip). clear fg Ip.
  rewrite (Proofs.Pbas.pbas_decision _ _ _ _ _ _ ES). unfold distances. rewrite map_map, at_least_map. apply at_least_all; [ | rewrite seq_length; auto ].
  intros s Is. apply in_seq in Is. rewrite E3, E4.
  destruct (F p Hp) as (ds & _ & D & EF).
  pose proof (Proofs.Pbas.play_inv (loop c) (first_rate c) Hn ds _ D (Proofs.Pbas.inv_start _)) as [_ [Rad _] _]. rewrite <- EF in Rad.
  set (b := bg st1 s (flat size p)).
  assert (O : observed size first (frames ++ [f]) p b).
  { subst b. destruct (r_bg _ _ _ _ _ _ _ R1 s (flat size p)) as [ -> |(_ & p' & q & _ & Hq' & _ & Ef & -> )].
    - cbn [bg opened]. apply observed_more. apply B; auto. lia.
    - apply flat_inj in Ef; auto. subst q. right. exists f. split; [ apply in_or_app; right; left; auto | auto ]. }
  specialize (Hobs b O). unfold dist. cbn [fst].
  pose proof (channel_range (mode_of c) (grad f p) (snd b) Ro) as [C1 _].
  eapply Qle_trans; [ apply Q.le_min_l | ].
  assert (T0 : (0 <= inject_Z (threshold (loop c)))%Q) by (apply (inject_le 0); auto).
  assert (X : (10 / norm st <= 1 # 2)%Q) by (apply Qle_shift_div_r; lra).
  assert (Y : (10 / norm st * channel_dist (mode_of c) (grad f p) (snd b) <= (1 # 2) * channel_dist (mode_of c) (grad f p) (snd b))%Q) by (apply Qmult_le_compat_r; auto).
  assert (Z' : ((57 # 100) * inject_Z (threshold (loop c)) <= radius (fb st (flat size p)) * inject_Z (threshold (loop c)))%Q) by (apply Qmult_le_compat_r; lra).
  eapply Qle_trans; [ | exact Z' ]. eapply Qle_trans; [ | exact Hobs ].
  eapply Qle_trans; [ apply Qplus_le_compat; [ exact Y | apply Qle_refl ] | ].
  apply Qplus_le_compat; [ | apply Qle_refl ]. generalize (channel_dist (mode_of c) (grad f p) (snd b)). intros q. unfold Qdiv. change (/ 2)%Q with (1 # 2)%Q. lra.
Qed.

Lemma familiar_grey c rnd size first frames st f m st' p fg : (forall k, 0 <= rnd k) -> (0 < samples (loop c))%nat -> (required (loop c) <= samples (loop c))%nat ->
  mode_of c = Grey -> 0 <= threshold (loop c) -> Forall (gapless Grey size) (frames ++ [f]) ->
  play c rnd size frames (initialize c rnd size first) = Some st -> apply c rnd size f st = Some (m, st') ->
  grey_pixel (value f p, grad f p) ->
  (forall v, observed size first (frames ++ [f]) p v -> grey_pixel v /\
     (gap (value f p) (fst v) + gap (grad f p) (snd v) / 2 <= (57 # 100) * inject_Z (threshold (loop c)))%Q) ->
  In (p, fg) m -> fg = false.
Proof.
  intros Hr Hn Hq M Ht G P A Gp H I. rewrite <- M in G.
  apply (familiar c rnd size first frames st f m st' p fg); auto; [ rewrite M; exact Logic.I | ].
  intros v O. destruct (H v O) as [Gv L]. rewrite M. destruct Gp as [[Lv Fv] [Lg Fg]], Gv as [[Lb Fb] [Lc Fc]]. cbn [fst snd] in *. unfold channel_dist, gap in *.
  destruct (value f p) as [|x [|? ?]], (grad f p) as [|y [|? ?]], v as [[|x' [|? ?]] [|y' [|? ?]]]; try discriminate. cbn [fst snd] in *.
  inversion Fv; inversion Fg; inversion Fb; inversion Fc; subst. cbn [hd] in *. rewrite !L1_bytes by auto. lra.
Qed.

Lemma channel_self c v : rooted (mode_of c) -> byte_pixel (match mode_of c with Grey => 1 | Colours _ => 3 end) v -> (channel_dist (mode_of c) v v == 0)%Q.
Proof.
  intros R [L F]. unfold channel_dist. destruct (mode_of c).
  - destruct v as [|x [|? ?]]; try discriminate. inversion F; subst. cbn [hd]. rewrite L1_bytes by auto. rewrite Z.sub_diag. reflexivity.
  - unfold L2dist_radicand. change (2 * 8) with 16. rewrite L2_arr by (auto; lia).
    assert (Z0 : forall l, squares l l = 0) by (induction l; cbn; lia). rewrite Z0. apply R.
Qed.

Lemma static c rnd size first frames st f m st' p fg k g : (forall k, 0 <= rnd k) -> (0 < samples (loop c))%nat -> (required (loop c) <= samples (loop c))%nat ->
  rooted (mode_of c) -> 0 <= threshold (loop c) -> Forall (gapless (mode_of c) size) (frames ++ [f]) ->
  byte_pixel (match mode_of c with Grey => 1 | Colours _ => 3 end) k -> byte_pixel (match mode_of c with Grey => 1 | Colours _ => 3 end) g ->
  Forall (fun f => forall q, value f q = k /\ grad f q = g) (first :: frames ++ [f]) ->
  play c rnd size frames (initialize c rnd size first) = Some st -> apply c rnd size f st = Some (m, st') ->
  In (p, fg) m -> fg = false.
Proof.
  intros Hr Hn Hq Ro Ht G Bk Bg S P A I. inversion S as [|? ? S1 S2]; subst. rewrite Forall_forall in S2.
  apply (familiar c rnd size first frames st f m st' p fg); auto. intros v O.
  assert (E : v = (k, g)). { destruct O as [(q & _ & _ & ->)|(h & Ih & ->)]; [ destruct (S1 q) | destruct (S2 h Ih p) ]; congruence. }
  destruct (S2 f ltac:(apply in_or_app; right; left; auto) p) as [-> ->]. subst v. cbn [fst snd]. rewrite (channel_self c k), (channel_self c g) by auto.
  assert (T0 : (0 <= inject_Z (threshold (loop c)))%Q) by (apply (inject_le 0); auto). unfold Qdiv. change (/ 2)%Q with (1 # 2)%Q. lra.
Qed.
