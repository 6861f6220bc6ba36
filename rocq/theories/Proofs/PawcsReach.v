From Coq Require Import ZArith QArith List Bool Lia Lqa Sorting.Permutation.
From Verif Require Import Lib.Grid Model.RoiTable Model.Lobster Spec.Lobster Model.WordDict Model.Pawcs Spec.Pawcs.
From Verif Require Model.Subsense Proofs.Lobster Proofs.WordDict Proofs.Pawcs Proofs.PawcsFrame Proofs.PawcsRun Proofs.PawcsSpec.
Import ListNotations.
Open Scope Z_scope.

Lemma begun_live c rnd sz img sc st : begun c rnd sz img sc st -> Pawcs.scene_ok sc /\ PawcsFrame.live_ok c sc 0 st /\ frame (lev st) = 0 /\ size sc = sz.
Proof.
  intros ((Hk & Hm & Hg & Hc) & Hr & B & au & u & cur & given & E). pose proof (PawcsRun.initialize_ok c rnd Hr Hk Hm Hg Hc au u cur given sz img B) as H.
  destruct (initialize_roi 2 cur given (snd sz) (fst sz)) as [r|]; [| rewrite E in H; discriminate ]. destruct ((fst sz <? 8) || (snd sz <? 8)); [ rewrite E in H; discriminate |].
  destruct H as (st' & E' & S & L & F). rewrite E in E'. injection E' as -> ->. auto.
Qed.
Lemma reached_live c rnd sz img sc l st : reached c rnd sz img sc l st -> Pawcs.scene_ok sc /\ PawcsFrame.live_ok c sc (frame (lev st)) st /\ frame (lev st) = count_frames l /\ size sc = sz.
Proof.
  intros (st0 & Bg & Ha & Al & E). destruct (begun_live _ _ _ _ _ _ Bg) as (S & L & F & Sz). destruct Bg as ((Hk & Hm & Hg & Hc) & Hr & _).
  pose proof (PawcsFrame.play_ok c rnd sc Hr Hk Hm Hg Hc S Ha l st0 Al) as H. rewrite F in H. specialize (H L). rewrite E in H. destruct H as [H1 H2]. split; [ exact S |]. split; [ exact H1 |]. split; [ exact H2 | exact Sz ].
Qed.

(* ------------------------------------------------------------------ an object for examples *)
Definition plain_mask (m : list (Z * bool)) (i : Z) : bool := existsb (fun x => (fst x =? i) && snd x) m.
Definition grey_config : config := {| ch := 1; minc := 20; doff := 2; most := 4; globals := 2; avgs := 100; rel := 1 # 3; offset := 0; filtered := plain_mask; grown := plain_mask |}.
Definition picture (i : Z) : Z := (i * 37 + 11) mod 256.
Definition other (i : Z) : Z := (i * 37 + 91) mod 256.
Definition lcg (n : nat) : Z := (Z.of_nat n * 1103515245 + 12345) mod 32768.
Lemma picture_bytes : byte_image picture. Proof. intros i. unfold picture. pose proof (Z.mod_pos_bound (i * 37 + 11) 256 ltac:(lia)). lia. Qed.
Lemma other_bytes : byte_image other. Proof. intros i. unfold other. pose proof (Z.mod_pos_bound (i * 37 + 91) 256 ltac:(lia)). lia. Qed.
Lemma lcg_pos k : 0 <= lcg k. Proof. unfold lcg. apply Z.mod_pos_bound. lia. Qed.
Lemma grey_usable : usable grey_config. Proof. unfold usable. cbn. lia. Qed.
Definition started : outcome (scene * state) := initialize grey_config lcg unused None None (8, 8) picture.
Definition history : list event := [Frame picture 0 0 0 0; Refresh 1 (1 # 2) true; Frame other 0 50 0 0; Refresh 1 2 false; Frame other 16 0 0 0].
Lemma started_def : started = initialize grey_config lcg (nothing no_word, nothing no_gword, true, O) None None (8, 8) picture. Proof. reflexivity. Qed.
Lemma started_begun sc st : started = Done (sc, st) -> begun grey_config lcg (8, 8) picture sc st.
Proof. rewrite started_def. intros E. split; [ exact grey_usable |]. split; [ exact lcg_pos |]. split; [ exact picture_bytes |]. exists true, O, None, None. exact E. Qed.
Definition is_done {A} (o : outcome A) : bool := match o with Done _ => true | _ => false end.
Definition ran (o : outcome (scene * state)) : outcome state := match o with Done (sc, st) => play grey_config lcg sc history st | Refused => Refused | Thrown => Thrown | Fault f => Fault f end.
Definition width (o : outcome (scene * state)) : nat := match o with Done (sc, _) => length (pxs sc) | _ => O end.
Lemma history_allowed : Forall allowed history.
Proof. repeat constructor; cbn; try lia; try apply picture_bytes; apply other_bytes. Qed.
Definition after {A} (f : scene -> state -> outcome A) (o : outcome (scene * state)) : outcome A := match o with Done (sc, st) => f sc st | Refused => Refused | Thrown => Thrown | Fault e => Fault e end.
Lemma after_done {A} (f : scene -> state -> outcome A) sc st : after f (Done (sc, st)) = f sc st. Proof. reflexivity. Qed.
Lemma after_two {A} (f g : scene -> state -> outcome A) o a b : after f o = Fault a -> after g o = Fault b -> a <> b -> exists sc st, o = Done (sc, st).
Proof. destruct o as [[sc st]| | |e]; cbn [after]; intros; try congruence. eauto. Qed.

(* ------------------------------------------------------------------ decisions *)
Lemma step_at c sc img j p st fg st' : step c sc img (j, place (size sc) p) st fg st' -> inner (size sc) p -> exists ws lc lt f,
  view c sc img p (j * Z.of_nat (locals c)) st ws lc lt f /\ decision c sc img p st ws lc lt f fg.
Proof.
  intros (q & ws & lc & lt & f & Hq & E & V & D & _) Hp. cbn [fst snd] in *. apply Proofs.Lobster.place_inj in E; [| apply Proofs.Lobster.inner_image; exact Hp | apply Proofs.Lobster.inner_image; exact Hq ]. subst q. exists ws, lc, lt, f. auto.
Qed.
Lemma support_pos now off f ws : (forall w, In w ws -> 0 <= heft now off w)%Q -> (0 <= support now off f ws)%Q.
Proof.
  induction ws as [|w ws IH]; intros H; cbn; [ lra |]. assert (A : (0 <= support now off f ws)%Q) by (apply IH; intros; apply H; now right). unfold support in A. destruct (f w); [ pose proof (H w (or_introl eq_refl)) |]; lra.
Qed.
Lemma support_none now off f ws : (forall w, In w ws -> f w = false) -> (support now off f ws == 0)%Q.
Proof.
  induction ws as [|w ws IH]; intros H; cbn; [ reflexivity |]. assert (A : (support now off f ws == 0)%Q) by (apply IH; intros; apply H; now right). unfold support in A. rewrite A, (H w (or_introl eq_refl)). reflexivity.
Qed.
Lemma listed_in m b ws w : listed m b ws -> In w ws -> exists t, b <= t < b + Z.of_nat (length ws) /\ shown m t = Some w.
Proof.
  intros L I. apply In_nth_error in I. destruct I as [x E]. exists (b + Z.of_nat x). split; [| exact (L _ _ E) ]. assert (x < length ws)%nat by (apply nth_error_Some; rewrite E; discriminate). lia.
Qed.

Lemma familiar c sc img j p st fg st' w0 : step c sc img (j, place (size sc) p) st fg st' -> inner (size sc) p ->
  let b := j * Z.of_nat (locals c) in
  shown (dict st) b = Some w0 -> (forall lc lt, limits c (px st (place (size sc) p)) lc lt -> fits (ch c) (lut (lev st)) (size sc) img p lc lt w0) ->
  (1 # 2 <= Subsense.radius (px st (place (size sc) p)))%Q ->
  (forall t w, b <= t < b + Z.of_nat (locals c) -> shown (dict st) t = Some w -> (0 <= heft (frame (lev st)) (woff (lev st)) w)%Q) -> fg = false.
Proof.
  intros S Hp b E0 Hfit HR Hh. destruct (step_at _ _ _ _ _ _ _ _ S Hp) as (ws & lc & lt & f & [[V1 V2] V3 V4] & [D1 D2 D3]). apply D1. left.
  destruct ws as [|w ws]; unfold enough, goal_of. { cbn. lra. }
  assert (Ew : w = w0). { specialize (V2 0%nat w eq_refl). replace (j * Z.of_nat (locals c) + Z.of_nat 0) with b in V2 by (unfold b; lia). congruence. } subst w.
  assert (Hall : forall w, In w (w0 :: ws) -> (0 <= heft (frame (lev st)) (woff (lev st)) w)%Q).
  { intros w I. destruct (listed_in _ _ _ _ V2 I) as (t & Ht & Et). apply (Hh t w); [ rewrite <- V1; exact Ht | exact Et ]. }
  assert (Ff : f w0 = true) by (apply V4; [ now left | apply Hfit; exact V3 ]). cbn [support fold_right]. rewrite Ff.
  pose proof (support_pos (frame (lev st)) (woff (lev st)) f ws (fun w I => Hall w (or_intror I))) as P. unfold support in P. pose proof (Hall w0 (or_introl eq_refl)) as P0.
  set (h := heft (frame (lev st)) (woff (lev st)) w0) in *. set (R := Subsense.radius (px st (place (size sc) p))) in *.
  assert (G : (h / (R * 2) <= h)%Q). { apply Qle_shift_div_r; [ lra |]. setoid_replace h with (h * 1)%Q at 1 by ring. rewrite (Qmult_comm h 1), (Qmult_comm h (R * 2)). apply Qmult_le_compat_r; lra. }
  lra.
Qed.
Lemma unseen c sc img j p st fg st' w0 : step c sc img (j, place (size sc) p) st fg st' -> inner (size sc) p -> roi sc (place (size sc) p) = 255 ->
  let b := j * Z.of_nat (locals c) in
  (0 < locals c)%nat -> shown (dict st) b = Some w0 -> (0 < heft (frame (lev st)) (woff (lev st)) w0)%Q -> (0 < Subsense.radius (px st (place (size sc) p)))%Q ->
  (forall t w lc lt, b <= t < b + Z.of_nat (locals c) -> shown (dict st) t = Some w -> limits c (px st (place (size sc) p)) lc lt -> ~ fits (ch c) (lut (lev st)) (size sc) img p lc lt w) ->
  (forall a lc lt, 0 <= a < Z.of_nat (globals c) -> limits c (px st (place (size sc) p)) lc lt ->
     ~ resembles (ch c) (pixel_of (ch c) (size sc) img p) (contrast (ch c) (lut (lev st)) (size sc) img p) lc lt (cells (glob st) a)) -> fg = true.
Proof.
  intros S Hp Hr b Hl E0 Hh HR Hn Hg. destruct (step_at _ _ _ _ _ _ _ _ S Hp) as (ws & lc & lt & f & [[V1 V2] V3 V4] & [D1 D2 D3]). destruct fg; [ reflexivity | exfalso ].
  assert (F0 : forall w, In w ws -> f w = false).
  { intros w I. destruct (f w) eqn:E; [| reflexivity ]. apply V4 in E; [| exact I ]. destruct (listed_in _ _ _ _ V2 I) as (t & Ht & Et). exfalso. apply (Hn t w lc lt); auto. rewrite <- V1. exact Ht. }
  pose proof (support_none (frame (lev st)) (woff (lev st)) f ws F0) as Z0. destruct (D2 eq_refl) as [E|[E|(a & Ha & (E & _))]].
  - destruct ws as [|w ws]; [ cbn in V1; lia |]. assert (Ew : w = w0). { specialize (V2 0%nat w eq_refl). replace (j * Z.of_nat (locals c) + Z.of_nat 0) with b in V2 by (unfold b; lia). congruence. } subst w.
    unfold enough, goal_of in E. rewrite Z0 in E. apply Qlt_not_le in E; [ exact E |]. apply Qlt_shift_div_l; [ lra |]. lra.
  - lia.
  - exact (Hg a lc lt Ha V3 E).
Qed.

Definition colour_config : config := {| ch := 3; minc := 20; doff := 4; most := 4; globals := 2; avgs := 100; rel := 1 # 3; offset := 0; filtered := plain_mask; grown := plain_mask |}.
Definition black : outcome (scene * state) := initialize colour_config lcg (nothing no_word, nothing no_gword, true, O) None None (8, 8) (fun _ => 0).
Definition verdict (v : bool) (o : outcome (list (Z * bool) * state)) : bool := match o with Done (m, _) => forallb (fun x => Bool.eqb (snd x) v) m | _ => false end.
Definition tested (f : scene -> state -> bool) (o : outcome (scene * state)) : bool := match o with Done (sc, st) => f sc st | _ => false end.
Lemma verdict_of v o : verdict v o = true -> exists m st, o = Done (m, st) /\ Forall (fun x => snd x = v) m.
Proof. destruct o as [[m st]| | |]; cbn; try discriminate. intros E. exists m, st. split; [ reflexivity |]. apply Forall_forall. intros x I. rewrite forallb_forall in E. apply Bool.eqb_prop. auto. Qed.
Lemma tested_of f o : tested f o = true -> exists sc st, o = Done (sc, st) /\ f sc st = true.
Proof. destruct o as [[sc st]| | |]; cbn [tested]; try discriminate. eauto. Qed.
Definition both (sc : scene) (st : state) : bool := (2 <=? Z.of_nat (length (pxs sc))) && (verdict true (apply colour_config lcg 0 0 0 0 sc (fun _ => 80) st) && verdict false (apply colour_config lcg 0 0 0 0 sc (fun _ => 86) st)).
Lemma both_split sc st : both sc st = true -> 2 <= Z.of_nat (length (pxs sc)) /\ verdict true (apply colour_config lcg 0 0 0 0 sc (fun _ => 80) st) = true /\ verdict false (apply colour_config lcg 0 0 0 0 sc (fun _ => 86) st) = true.
Proof. unfold both. generalize (verdict true (apply colour_config lcg 0 0 0 0 sc (fun _ => 80) st)) (verdict false (apply colour_config lcg 0 0 0 0 sc (fun _ => 86) st)). intros u v E. apply andb_true_iff in E. destruct E as [E1 E2]. apply Z.leb_le in E1. apply andb_true_iff in E2. auto. Qed.
Lemma grey_apart u : 0 <= u <= 255 -> apart 3 [0; 0; 0] [u; u; u] ((3 * u) mod 256 / 2).
Proof.
  intros Hu. unfold apart. change (3 =? 1) with false. cbv iota. exists 0. split.
  - split; [ reflexivity |]. intros _ N. exfalso. apply N. split; [ exists 0 | exists u ]; repeat constructor.
  - assert (E : Spec.Distances.sum_abs_diff [0; 0; 0] [u; u; u] = 3 * u) by (cbn [Spec.Distances.sum_abs_diff]; lia). rewrite E. lia.
Qed.
Lemma black_def : black = initialize colour_config lcg (nothing no_word, nothing no_gword, true, O) None None (8, 8) (fun _ => 0). Proof. reflexivity. Qed.
Lemma black_begun sc st : black = Done (sc, st) -> begun colour_config lcg (8, 8) (fun _ => 0) sc st.
Proof. rewrite black_def. intros E. split; [ unfold usable; cbn; lia |]. split; [ exact lcg_pos |]. split; [ intros i; lia |]. exists true, O, None, None. exact E. Qed.
Lemma contrast_lost : exists c rnd sc st m m' st1 st2, reached c rnd (8, 8) (fun _ => 0) sc [] st /\ ch c = 3 /\ pxs sc <> [] /\
  apart 3 [0; 0; 0] [80; 80; 80] 120 /\ apart 3 [0; 0; 0] [86; 86; 86] 1 /\
  apply c rnd 0 0 0 0 sc (fun _ => 80) st = Done (m, st1) /\ Forall (fun x => snd x = true) m /\
  apply c rnd 0 0 0 0 sc (fun _ => 86) st = Done (m', st2) /\ Forall (fun x => snd x = false) m'.
Proof.
  assert (E : tested both black = true) by (vm_compute; reflexivity). destruct (tested_of _ _ E) as (sc & st & Es & Eb). apply both_split in Eb. destruct Eb as (El & E1 & E2).
  destruct (verdict_of _ _ E1) as (m & st1 & A1 & A2), (verdict_of _ _ E2) as (m' & st2 & B1 & B2). exists colour_config, lcg, sc, st, m, m', st1, st2.
  split. { exists st. split; [ exact (black_begun _ _ Es) | split; [ cbn; lia | split; [ constructor | reflexivity ] ] ]. }
  split; [ reflexivity |]. split; [ intros X; rewrite X in El; cbn in El; lia |]. split; [ exact (grey_apart 80 ltac:(lia)) |]. split; [ exact (grey_apart 86 ltac:(lia)) |]. auto.
Qed.

(* ------------------------------------------------------------------ the first pixel of the black object *)
Lemma walk_first R a l s m s' : walk R (a :: l) s m s' -> exists fg s1 m1, R a s fg s1 /\ m = (snd a, fg) :: m1.
Proof.
  remember (a :: l) as l0 eqn:E. intros W. revert a l E. induction W as [|l0 st m st1 ji fg st2 W IH H]; intros a l E; [ discriminate |].
  destruct l0 as [|b l0]; cbn [app] in E.
  - injection E as -> _. inversion W; subst; [ exists fg, st2, []; auto |]. exfalso. eapply app_cons_not_nil. eauto.
  - injection E as -> _. destruct (IH _ _ eq_refl) as (fg1 & s1 & m1 & H1 & ->). exists fg1, s1, (m1 ++ [(snd ji, fg)]). auto.
Qed.
Definition dark (w : word) : bool := match colour w with [x; y; z] => forallb (fun v => (0 <=? v) && (v <=? 14)) [x; y; z] | _ => false end && (1 <=? occ w) && (first w =? 0) && (latest w =? 0).
Definition pitch (w : word) : bool := match colour w, tex w with [0; 0; 0], [0; 0; 0] => true | _, _ => false end.
Definition seen_at (f : word -> bool) (st : state) (t : Z) : bool := match shown (dict st) t with Some w => f w | None => false end.
Definition gdark (g : gword) : bool := match gcol g with [x; y; z] => forallb (fun v => (0 <=? v) && (v <=? 14)) [x; y; z] | _ => false end.
Definition first_pixel (sc : scene) (st : state) : bool :=
  forallb (seen_at dark st) [0; 1; 2; 3] && seen_at pitch st 0 && forallb (fun a => gdark (cells (glob st) a)) [0; 1] && Qeq_bool (Subsense.radius (px st 18)) 2 && (hd 0 (pxs sc) =? 18) && (roi sc 18 =? 255) &&
  (woff (lev st) =? 1000) && (fst (size sc) =? 8) && (snd (size sc) =? 8) && (lut (lev st) 0 =? 0) && (frame (lev st) =? 0).
Definition scenic (sc : scene) (st : state) : bool := first_pixel sc st && both sc st.
Lemma black_scenic : tested scenic black = true. Proof. vm_compute. reflexivity. Qed.
Lemma flat_mismatch vals ref thr : 0 <= thr -> Forall (fun v => v = ref) vals -> mismatch vals ref thr 0 = 0.
Proof.
  intros Ht Hv. unfold mismatch. generalize (seq 0 16). induction Hv as [|v vals -> Hv IH]; intros [|n l]; try reflexivity. cbn [combine count fst snd]. unfold count in *. cbn [filter fst snd]. rewrite Z.sub_diag, Z.bits_0. destruct (Z.ltb_spec thr (Z.abs 0)); [ cbn in *; lia |]. apply IH.
Qed.
Lemma black_texture l w : l 0 = 0 -> pitch w = true -> own_texture 3 l (8, 8) (fun _ => 0) (2, 2) w = 0 /\ cross_texture 3 l (8, 8) (fun _ => 0) (2, 2) w = 0.
Proof.
  intros Hl Hp. unfold pitch in Hp. destruct (colour w) as [|[] [|[] [|[] []]]] eqn:Ec; try discriminate. destruct (tex w) as [|[] [|[] [|[] []]]] eqn:Et; try discriminate.
  assert (A : forall x, Forall (fun v => v = 0) (Spec.Lobster.around 3 (8, 8) (fun _ => 0) (2, 2) x)). { intros x. apply Forall_forall. intros v I. apply in_map_iff in I. destruct I as (o & <- & _). reflexivity. }
  assert (N : forall x, nth x [0; 0; 0] 0 = 0) by (intros [|[|[|[]]]]; reflexivity).
  unfold own_texture, cross_texture, total. rewrite Ec, Et. split; rewrite (map_ext _ (fun _ => 0)); try reflexivity; intros x; cbv zeta; rewrite ?N.
  - change (Spec.Lobster.value 3 (8, 8) (fun _ => 0) (2, 2) x) with 0. apply flat_mismatch; [ lia | apply A ].
  - apply flat_mismatch; [ lia | apply A ].
Qed.
Lemma black_limits p lc lt : (Subsense.radius p == 2)%Q -> limits colour_config p lc lt -> lc = 84 /\ 0 <= lt.
Proof.
  intros R (r & z & Hr & [H1 H2] & _ & _ & H). rewrite R in H1, H2. cbn [ch minc colour_config] in *. change (3 =? 1) with false in H. destruct H as [-> ->].
  assert (E : (2 * inject_Z (20 * 20) == inject_Z 800)%Q) by reflexivity. rewrite E in H1, H2. rewrite <- Zle_Qle in H1. rewrite <- Zlt_Qlt in H2. split; [ assert (r = 28) by nia; lia | apply Z.mod_pos_bound; lia ].
Qed.
Lemma shown_in f st t : seen_at f st t = true -> exists w, shown (dict st) t = Some w /\ f w = true.
Proof. unfold seen_at. destruct (shown (dict st) t) as [w|]; [ eauto | discriminate ]. Qed.
Record black_facts (sc : scene) (st : state) : Prop := {
  bf_words : forall t, 0 <= t < 4 -> exists w, shown (dict st) t = Some w /\ dark w = true;
  bf_first : exists w, shown (dict st) 0 = Some w /\ pitch w = true;
  bf_glob : forall a, 0 <= a < 2 -> gdark (cells (glob st) a) = true;
  bf_rad : (Subsense.radius (px st 18) == 2)%Q;
  bf_rest : hd 0 (pxs sc) = 18 /\ roi sc 18 = 255 /\ woff (lev st) = 1000 /\ size sc = (8, 8) /\ lut (lev st) 0 = 0 /\ frame (lev st) = 0 }.
Lemma first_pixel_facts sc st : first_pixel sc st = true -> black_facts sc st.
Proof.
  unfold first_pixel. rewrite !andb_true_iff, !Z.eqb_eq. intros ((((((((((H1 & H2) & H3) & H4) & H5) & H6) & H7) & H8) & H9) & H10) & H11). rewrite forallb_forall in H1, H3. split.
  - intros t Ht. apply shown_in. apply H1. cbn. lia.
  - apply shown_in. exact H2.
  - intros a Ha. apply H3. cbn. lia.
  - apply Qeq_bool_iff. exact H4.
  - split; [ exact H5 |]. split; [ exact H6 |]. split; [ exact H7 |]. split; [ destruct (size sc); cbn in *; congruence |]. auto.
Qed.
Lemma black_state : exists sc st, reached colour_config lcg (8, 8) (fun _ => 0) sc [] st /\ black_facts sc st.
Proof.
  destruct (tested_of _ _ black_scenic) as (sc & st & Es & Eb). unfold scenic in Eb. generalize (first_pixel_facts sc st). destruct (first_pixel sc st); [| discriminate Eb ]. intros F. exists sc, st. split; [| exact (F eq_refl) ].
  exists st. split; [ exact (black_begun _ _ Es) | split; [ cbn; lia | split; [ constructor | reflexivity ] ] ].
Qed.
Lemma dark_heft s w : frame (lev s) = 1 -> woff (lev s) = 1000 -> dark w = true -> (0 < heft (frame (lev s)) (woff (lev s)) w)%Q.
Proof.
  intros F W D. unfold dark in D. rewrite !andb_true_iff, Z.leb_le, !Z.eqb_eq in D. destruct D as (((_ & D1) & D2) & D3). unfold heft. rewrite F, W, D2, D3. apply Qlt_shift_div_l; [ reflexivity |].
  change (0 - 0 + 2 * (1 - 0) + 1000) with 1002. setoid_replace (0 * inject_Z 1002)%Q with (inject_Z 0) by ring. rewrite <- Zlt_Qlt. lia.
Qed.
Lemma dark_gap l : match l with [x; y; z] => forallb (fun v => (0 <=? v) && (v <=? 14)) [x; y; z] | _ => false end = true -> exists x y z, l = [x; y; z] /\ 0 <= x <= 14 /\ 0 <= y <= 14 /\ 0 <= z <= 14.
Proof.
  destruct l as [|x [|y [|z []]]]; try discriminate. cbn [forallb]. rewrite !andb_true_iff, !Z.leb_le. intros H. exists x, y, z. split; [ reflexivity |]. lia.
Qed.
Lemma far_80 l d : (exists x y z, l = [x; y; z] /\ 0 <= x <= 14 /\ 0 <= y <= 14 /\ 0 <= z <= 14) -> apart 3 [80; 80; 80] l d \/ apart 3 l [80; 80; 80] d -> 84 < d.
Proof.
  intros (x & y & z & -> & Hx & Hy & Hz) H. unfold apart in H. change (3 =? 1) with false in H. cbv iota in H.
  assert (P : forall v w r, chroma v w r -> 0 <= r). { intros v w r [C1 C2]. destruct (list_eq_dec Z.eq_dec v w) as [E|E]; [ rewrite (C1 (or_introl E)); lia |]. destruct (Z.le_gt_cases 0 r) as [L|L]; [ exact L |].
    assert (N : ~ (Spec.Distances.grey v /\ Spec.Distances.grey w)) by (intros N; rewrite (C1 (or_intror N)) in L; lia). destruct (C2 E N) as (X & _ & Y & _). exact Y. }
  destruct H as [(r & C & ->)|(r & C & ->)]; apply P in C.
  - assert (E : Spec.Distances.sum_abs_diff [80; 80; 80] [x; y; z] = 240 - x - y - z) by (cbn [Spec.Distances.sum_abs_diff]; lia). rewrite E, Z.mod_small by lia. pose proof (Z.div_le_mono 198 (240 - x - y - z) 2 ltac:(lia) ltac:(lia)). change (198 / 2) with 99 in *. lia.
  - assert (E : Spec.Distances.sum_abs_diff [x; y; z] [80; 80; 80] = 240 - x - y - z) by (cbn [Spec.Distances.sum_abs_diff]; lia). rewrite E, Z.mod_small by lia. pose proof (Z.div_le_mono 198 (240 - x - y - z) 2 ltac:(lia) ltac:(lia)). change (198 / 2) with 99 in *. lia.
Qed.
Lemma first_numbered (i : Z) (l : list Z) : exists l', combine (zrange 0 (Z.of_nat (length (i :: l)))) (i :: l) = (0, i) :: l'.
Proof. unfold zrange. rewrite Nat2Z.id. cbn [length]. eexists. reflexivity. Qed.
