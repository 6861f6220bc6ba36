From Coq Require Import ZArith List Bool Lia.
From Verif Require Import Lib.Grid Model.RoiTable Spec.RoiTable.
Import ListNotations.
Open Scope Z_scope.

(** * Tables *)
Definition nz (m : mask) (i : Z) : bool := negb (data m i =? 0).
Definition ranked (m : mask) (i : Z) : info := Info (i / cols m) (i mod cols m) (if nz m i then Some (count (nz m) (zrange 0 i)) else None).
Definition shown (m : mask) (ch : Z) (img : Z -> Z) (i : Z) : list Z := map (fun c => if nz m i then img (i * ch + c) else 0) (zrange 0 ch).

Lemma zseq_snoc a n : zseq a (S n) = zseq a n ++ [a + Z.of_nat n].
Proof. replace (S n) with (n + 1)%nat by lia. rewrite zseq_app. f_equal. unfold zseq. cbn. f_equal. lia. Qed.

Lemma tables_prefix m ch img n : fold_left (table_step m ch img) (zseq 0 n) (Tables [] [] []) =
  Tables (filter (nz m) (zseq 0 n)) (map (ranked m) (zseq 0 n)) (flat_map (shown m ch img) (zseq 0 n)).
Proof.
  induction n as [|n IH]; [reflexivity|]. rewrite zseq_snoc, fold_left_app, IH, filter_app, map_app, flat_map_app. cbn [fold_left filter map flat_map].
  rewrite Z.add_0_l, app_nil_r. unfold table_step, ranked, shown. cbn [lut infos last].
  assert (C : count (nz m) (zrange 0 (Z.of_nat n)) = Z.of_nat (length (filter (nz m) (zseq 0 n)))) by (unfold count, zrange; rewrite Nat2Z.id; reflexivity).
  rewrite C. change (negb (data m (Z.of_nat n) =? 0)) with (nz m (Z.of_nat n)). destruct (nz m (Z.of_nat n)); rewrite ?app_nil_r; reflexivity.
Qed.

Lemma tables_all m ch img : tables_of m ch img = Tables (filter (nz m) (zrange 0 (rows m * cols m))) (map (ranked m) (zrange 0 (rows m * cols m))) (flat_map (shown m ch img) (zrange 0 (rows m * cols m))).
Proof. apply tables_prefix. Qed.

Lemma increasing_zseq a n : increasing (zseq a n).
Proof.
  revert a. induction n as [|n IH]; intros a; [exact I|]. rewrite zseq_S. cbn [increasing]. split; [|apply IH]. intros b H. apply in_zseq in H. lia.
Qed.
Lemma increasing_filter f l : increasing l -> increasing (filter f l).
Proof.
  induction l as [|a l IH]; [auto|]. cbn [increasing filter]. intros (H & L). destruct (f a); auto. cbn [increasing]. split; auto. intros b I. apply filter_In in I. apply H, I.
Qed.

Lemma lut_in m ch img i : In i (lut (tables_of m ch img)) <-> 0 <= i < rows m * cols m /\ data m i <> 0.
Proof. rewrite tables_all. cbn [lut]. rewrite filter_In, in_zrange. unfold nz. rewrite negb_true_iff, Z.eqb_neq. rewrite Z.add_0_l. reflexivity. Qed.
Lemma lut_increasing m ch img : increasing (lut (tables_of m ch img)).
Proof. rewrite tables_all. cbn [lut]. apply increasing_filter, increasing_zseq. Qed.

Lemma grid_flat_nat h w : 0 < w -> grid 0 (Z.of_nat h) 0 w = map (fun i => (i / w, i mod w)) (zrange 0 (Z.of_nat h * w)).
Proof.
  intros W. induction h as [|h IH]; [reflexivity|]. unfold grid in *. unfold zrange at 1 in IH. unfold zrange at 1. rewrite Nat2Z.id in *. rewrite zseq_snoc.
  assert (P : forall (A B : Type) (l l' : list A) (k : list B), list_prod (l ++ l') k = list_prod l k ++ list_prod l' k).
  { clear. intros A B l l' k. induction l as [|a l IH]; [reflexivity|]. cbn [app list_prod]. rewrite IH, app_assoc. reflexivity. }
  rewrite P, IH. cbn [list_prod]. rewrite app_nil_r, Z.add_0_l. unfold zrange.
  replace (Z.to_nat (Z.of_nat (S h) * w)) with (Z.to_nat (Z.of_nat h * w) + Z.to_nat w)%nat by (rewrite <- Z2Nat.inj_add by nia; f_equal; lia).
  rewrite zseq_app, map_app. f_equal. rewrite Z.add_0_l, Z2Nat.id by nia.
  replace (zseq (Z.of_nat h * w) (Z.to_nat w)) with (map (fun x => x + Z.of_nat h * w) (zseq 0 (Z.to_nat w))) by (rewrite <- zseq_shift; f_equal).
  rewrite map_map. apply map_ext_in. intros x X. apply in_zseq in X. rewrite Z2Nat.id in X by lia.
  rewrite Z.div_add by lia. rewrite Z.div_small by lia. rewrite Z.mod_add by lia. rewrite Z.mod_small by lia. reflexivity.
Qed.
Lemma grid_flat h w : 0 <= h -> 0 < w -> grid 0 h 0 w = map (fun i => (i / w, i mod w)) (zrange 0 (h * w)).
Proof. intros H W. rewrite <- (Z2Nat.id h H). now apply grid_flat_nat. Qed.

Lemma lut_length m ch img : 0 <= rows m -> 0 < cols m -> Z.of_nat (length (lut (tables_of m ch img))) = nonzero m.
Proof.
  intros H W. rewrite tables_all. cbn [lut]. unfold nonzero, pixels. rewrite grid_flat, count_map by assumption. reflexivity.
Qed.

Lemma range_cut i n : 0 <= i < n -> exists r, zrange 0 n = zrange 0 i ++ i :: r.
Proof.
  intros H. unfold zrange. replace (Z.to_nat n) with (Z.to_nat i + S (Z.to_nat (n - i - 1)))%nat by lia.
  rewrite zseq_app, zseq_S. rewrite Z.add_0_l, Z2Nat.id by lia. eauto.
Qed.

Definition none : info := Info 0 0 None.
Lemma infos_at m ch img i : 0 <= i < rows m * cols m -> nth (Z.to_nat i) (infos (tables_of m ch img)) none = ranked m i.
Proof.
  intros H. rewrite tables_all. cbn [infos]. destruct (range_cut i _ H) as (r & ->). rewrite map_app. cbn [map].
  rewrite app_nth2; rewrite map_length; unfold zrange; rewrite zseq_length; [|lia]. rewrite Nat.sub_diag. reflexivity.
Qed.
Lemma infos_length m ch img : 0 <= rows m * cols m -> Z.of_nat (length (infos (tables_of m ch img))) = rows m * cols m.
Proof. intros H. rewrite tables_all. cbn [infos]. rewrite map_length. unfold zrange. rewrite zseq_length. lia. Qed.

Lemma lut_rank m ch img i : 0 <= i < rows m * cols m -> data m i <> 0 -> nth (Z.to_nat (count (nz m) (zrange 0 i))) (lut (tables_of m ch img)) (-1) = i /\ 0 <= count (nz m) (zrange 0 i) < Z.of_nat (length (lut (tables_of m ch img))).
Proof.
  intros H D. rewrite tables_all. cbn [lut]. destruct (range_cut i _ H) as (r & ->). rewrite filter_app. cbn [filter]. assert (nz m i = true) as -> by (unfold nz; apply negb_true_iff, Z.eqb_neq; exact D).
  unfold count. rewrite Nat2Z.id, app_length. cbn [length]. rewrite app_nth2, Nat.sub_diag by lia. cbn [nth]. split; [reflexivity|lia].
Qed.

Lemma increasing_nth_inj : forall l j k d, increasing l -> (j < length l)%nat -> (k < length l)%nat -> nth j l d = nth k l d -> j = k.
Proof.
  induction l as [|a l IH]; intros j k d H J K E; cbn [length] in *; [lia|]. destruct H as (H & L). destruct j as [|j], k as [|k]; cbn [nth] in E; auto.
  - exfalso. assert (In (nth k l d) l) by (apply nth_In; lia). specialize (H _ H0). lia.
  - exfalso. assert (In (nth j l d) l) by (apply nth_In; lia). specialize (H _ H0). lia.
  - f_equal. eapply IH; eauto; lia.
Qed.

Lemma rank_lut m ch img k : (k < length (lut (tables_of m ch img)))%nat -> model (nth (Z.to_nat (nth k (lut (tables_of m ch img)) (-1))) (infos (tables_of m ch img)) none) = Some (Z.of_nat k).
Proof.
  intros K. assert (I : In (nth k (lut (tables_of m ch img)) (-1)) (lut (tables_of m ch img))) by (apply nth_In; exact K).
  apply lut_in in I. destruct I as (I & D). rewrite infos_at by exact I. unfold ranked. cbn [model]. set (i := nth k _ _) in *.
  assert (nz m i = true) as -> by (unfold nz; apply negb_true_iff, Z.eqb_neq; exact D).
  destruct (lut_rank m ch img i I D) as (E & B). f_equal.
  assert (Z.to_nat (count (nz m) (zrange 0 i)) = k); [|lia].
  eapply increasing_nth_inj; [apply lut_increasing| |exact K|exact E]. lia.
Qed.

Lemma info_ok m ch img i : 0 < cols m -> 0 <= rows m -> 0 <= i < rows m * cols m ->
  let f := nth (Z.to_nat i) (infos (tables_of m ch img)) none in
  i = coord_y f * cols m + coord_x f /\ 0 <= coord_x f < cols m /\ 0 <= coord_y f < rows m /\
  (px m (coord_y f) (coord_x f) = 0 -> model f = None) /\
  (px m (coord_y f) (coord_x f) <> 0 -> exists k, model f = Some k /\ 0 <= k < Z.of_nat (length (lut (tables_of m ch img))) /\ nth (Z.to_nat k) (lut (tables_of m ch img)) (-1) = i).
Proof.
  intros W R H f. subst f. rewrite infos_at by exact H. unfold ranked. cbn [coord_y coord_x model].
  assert (D : px m (i / cols m) (i mod cols m) = data m i) by reflexivity. rewrite D. clear D.
  split; [rewrite (Z.div_mod i (cols m)) at 1; lia|]. split; [apply Z.mod_pos_bound; lia|]. split; [split; [apply Z.div_pos; lia|apply Z.div_lt_upper_bound; lia]|]. split.
  - intros D. unfold nz. rewrite D. reflexivity.
  - intros D. assert (nz m i = true) as -> by (unfold nz; apply negb_true_iff, Z.eqb_neq; exact D). destruct (lut_rank m ch img i H D) as (E & B). eauto.
Qed.

Lemma flat_map_nth {A} (f : A -> list Z) k : forall l i c d a, (forall x, In x l -> length (f x) = k) -> (i < length l)%nat -> (c < k)%nat -> nth (i * k + c) (flat_map f l) d = nth c (f (nth i l a)) d.
Proof.
  induction l as [|x l IH]; intros i c d a H I C; cbn [length] in *; [lia|]. cbn [flat_map]. destruct i as [|i]; cbn [nth].
  - rewrite app_nth1; [reflexivity|]. rewrite (H x) by (left; reflexivity). lia.
  - rewrite app_nth2; rewrite (H x) by (left; reflexivity); [|lia]. replace (S i * k + c - k)%nat with (i * k + c)%nat by lia. apply IH; [intros y Y; apply H; right; exact Y|lia|lia].
Qed.

Lemma last_ok m ch img i c : 0 <= i < rows m * cols m -> 0 <= c < ch -> nth (Z.to_nat (i * ch + c)) (last (tables_of m ch img)) 0 = if data m i =? 0 then 0 else img (i * ch + c).
Proof.
  intros I C. rewrite tables_all. cbn [last]. replace (Z.to_nat (i * ch + c)) with (Z.to_nat i * Z.to_nat ch + Z.to_nat c)%nat by (rewrite <- Z2Nat.inj_mul, <- Z2Nat.inj_add by nia; reflexivity).
  rewrite (flat_map_nth (shown m ch img) (Z.to_nat ch) _ _ _ 0 0).
  - unfold zrange. rewrite nth_zseq by lia. rewrite Z2Nat.id, Z.add_0_l by lia. unfold shown.
    rewrite (nth_indep _ 0 (if nz m i then img (i * ch + 0) else 0)) by (rewrite map_length; unfold zrange; rewrite zseq_length; lia).
    rewrite (map_nth (fun c => if nz m i then img (i * ch + c) else 0)). unfold zrange. rewrite nth_zseq by lia. rewrite Z2Nat.id, Z.add_0_l by lia. unfold nz. destruct (data m i =? 0); reflexivity.
  - intros x _. unfold shown. rewrite map_length. unfold zrange. apply zseq_length.
  - unfold zrange. rewrite zseq_length. lia.
  - lia.
Qed.

(** * Regions *)
Lemma valid_px b m f : 0 <= b -> validateROI b m = Some f -> rows f = rows m /\ cols f = cols m /\ 0 < rows m /\ 0 < cols m /\
  forall y x, inside (rows m) (cols m) (y, x) -> (away b (rows m) (cols m) (y, x) -> px f y x = px m y x) /\ (~ away b (rows m) (cols m) (y, x) -> px f y x = 0).
Proof.
  intros B. unfold validateROI. destruct (Z.leb_spec (rows m) 0), (Z.leb_spec (cols m) 0); cbn [orb]; try discriminate.
  destruct (Z.ltb_spec 0 b).
  - destruct (Z.ltb_spec (cols m) (2 * b)), (Z.ltb_spec (rows m) (2 * b)); cbn [orb]; try discriminate. intros E. apply (f_equal (fun o => match o with Some v => v | None => m end)) in E. cbv beta iota in E. subst f. cbn [rows cols]. do 4 (split; [auto|]). intros y x I.
    assert (Q : (b <=? y) && (y <? b + (rows m - 2 * b)) && (b <=? x) && (x <? b + (cols m - 2 * b)) = true <-> away b (rows m) (cols m) (y, x)) by (unfold away; cbn [fst snd]; rewrite !andb_true_iff, !Z.leb_le, !Z.ltb_lt; lia).
    destruct ((b <=? y) && (y <? b + (rows m - 2 * b)) && (b <=? x) && (x <? b + (cols m - 2 * b))) eqn:Q'.
    + split; [intros _; cbn [px]; rewrite Q'; reflexivity|intros A; exfalso; apply A; apply Q; reflexivity].
    + split; [intros A; apply Q in A; discriminate A|intros _; cbn [px]; rewrite Q'; reflexivity].
  - intros E; inversion E; subst f; clear E. unfold inside, away. cbn [fst snd]. repeat split; auto. intros A. exfalso. lia.
Qed.

Lemma max_two : forall l a, (a = 0 \/ a = 255) -> (forall v, In v l -> v = 0 \/ v = 255) -> (fold_left Z.max l a = 255 /\ (a = 255 \/ In 255 l)) \/ (fold_left Z.max l a = 0 /\ a = 0 /\ forall v, In v l -> v = 0).
Proof.
  induction l as [|v l IH]; intros a A H; cbn [fold_left].
  - destruct A as [ -> | -> ]; [right|left]; auto. repeat split. intros v [].
  - destruct (H v (or_introl eq_refl)) as [ -> | -> ], A as [ -> | -> ].
    + change (Z.max 0 0) with 0. destruct (IH 0 (or_introl eq_refl) ltac:(intros; apply H; right; auto)) as [(E & [D|D])|(E & _ & D)]; [lia|left; split; auto; right; right; exact D|right; repeat split; auto; intros v [ <- |I]; auto].
    + change (Z.max 255 0) with 255. destruct (IH 255 (or_intror eq_refl) ltac:(intros; apply H; right; auto)) as [(E & D)|(E & D & _)]; [left; split; auto|discriminate D].
    + change (Z.max 0 255) with 255. destruct (IH 255 (or_intror eq_refl) ltac:(intros; apply H; right; auto)) as [(E & D)|(E & D & _)]; [left; split; auto; right; left; reflexivity|discriminate D].
    + change (Z.max 255 255) with 255. destruct (IH 255 (or_intror eq_refl) ltac:(intros; apply H; right; auto)) as [(E & D)|(E & D & _)]; [left; split; auto|discriminate D].
Qed.

Definition two (m : mask) : Prop := forall y x, inside (rows m) (cols m) (y, x) -> px m y x = 0 \/ px m y x = 255.
Lemma dilate_close b m y x : 0 <= b -> two m -> (close b m (y, x) -> px (dilate b m) y x = 255) /\ (~ close b m (y, x) -> px (dilate b m) y x = 0).
Proof.
  intros B T. unfold dilate. cbn [px]. set (l := filter _ _). set (vs := map _ l).
  assert (L : forall q, In q l <-> inside (rows m) (cols m) q /\ Z.abs (y - fst q) <= b /\ Z.abs (x - snd q) <= b).
  { intros [y' x']. unfold l. rewrite filter_In, in_grid, !andb_true_iff, !Z.leb_le, !Z.ltb_lt. unfold inside. cbn [fst snd]. lia. }
  assert (V : forall v, In v vs -> v = 0 \/ v = 255).
  { intros v I. unfold vs in I. apply in_map_iff in I. destruct I as ([y' x'] & <- & I). apply L in I. apply T. apply I. }
  destruct (max_two vs 0 (or_introl eq_refl) V) as [(E & [D|D])|(E & _ & D)]; [discriminate D| |].
  - split; [auto|]. intros N. exfalso. apply N. unfold vs in D. apply in_map_iff in D. destruct D as (q & Q & I). apply L in I. exists q. cbn [fst snd]. repeat split; try apply I. rewrite Q. discriminate.
  - split; [|auto]. intros (q & Q & H1 & H2 & N). exfalso. apply N. apply D. unfold vs. apply in_map_iff. exists q. split; auto. apply L. auto.
Qed.

Lemma close_dec b m p : 0 <= b -> two m -> close b m p \/ ~ close b m p.
Proof.
  destruct p as [y x]. intros B T. destruct (Z.eq_dec (px (dilate b m) y x) 255) as [E|E].
  - left. destruct (existsb (fun q => negb (px m (fst q) (snd q) =? 0) && (Z.abs (y - fst q) <=? b) && (Z.abs (x - snd q) <=? b)) (pixels m)) eqn:X.
    + apply existsb_exists in X. destruct X as (q & I & X). unfold pixels in I. apply in_grid in I. rewrite !andb_true_iff, negb_true_iff, Z.eqb_neq, !Z.leb_le in X. exists q. unfold inside. cbn [fst snd]. repeat split; try apply X; lia.
    + exfalso. assert (N : ~ close b m (y, x)).
      { intros (q & Q & H1 & H2 & N). assert (existsb (fun q => negb (px m (fst q) (snd q) =? 0) && (Z.abs (y - fst q) <=? b) && (Z.abs (x - snd q) <=? b)) (pixels m) = true); [|congruence].
        apply existsb_exists. exists q. split; [unfold pixels; apply in_grid; unfold inside in Q; lia|]. rewrite !andb_true_iff, negb_true_iff, Z.eqb_neq, !Z.leb_le. auto. }
      apply (proj2 (dilate_close b m y x B T)) in N. congruence.
  - right. intros C. apply E. apply (proj1 (dilate_close b m y x B T)). exact C.
Qed.

Lemma given_two r : bytes r -> forallb (fun p => negb ((px r (fst p) (snd p) <? 255) && (0 <? px r (fst p) (snd p)))) (pixels r) = true -> two r.
Proof.
  intros B H y x I. rewrite forallb_forall in H. specialize (H (y, x)). unfold pixels in H. rewrite in_grid in H. cbn [fst snd] in H. unfold inside in I. cbn [fst snd] in I.
  specialize (H ltac:(lia)). specialize (B y x I). rewrite negb_true_iff, andb_false_iff, !Z.ltb_ge in H. lia.
Qed.

Lemma given_px b cur r h w f : 0 <= b -> bytes r -> initialize_roi b cur (Some r) h w = Some f ->
  rows r = h /\ cols r = w /\ two r /\ rows f = h /\ cols f = w /\ 0 < nonzero f /\
  forall y x, inside h w (y, x) -> px f y x = 255 /\ px r y x = 255 /\ away b h w (y, x) \/ px f y x = 128 /\ px r y x = 0 /\ close b r (y, x) /\ away b h w (y, x) \/ px f y x = 0 /\ (~ away b h w (y, x) \/ ~ close b r (y, x)).
Proof.
  intros B Y. unfold initialize_roi. destruct ((h <=? 0) || (w <=? 0)) eqn:HW; [discriminate|]. destruct (negb ((rows r =? h) && (cols r =? w))) eqn:S; [discriminate|].
  apply negb_false_iff, andb_true_iff in S. rewrite !Z.eqb_eq in S. destruct S as (S1 & S2).
  destruct (negb (forallb (fun p => negb ((px r (fst p) (snd p) <? 255) && (0 <? px r (fst p) (snd p)))) (pixels r))) eqn:T; [discriminate|]. apply negb_false_iff in T. apply given_two in T; [|exact Y].
  match goal with |- context [0 <? nonzero ?n] => set (n1 := n) end. cbv zeta. destruct (0 <? nonzero n1); [|discriminate]. destruct (validateROI b n1) as [f'|] eqn:V; [|discriminate]. destruct (Z.ltb_spec 0 (nonzero f')); [|discriminate].
  intros E; inversion E; subst f'; clear E. apply valid_px in V; [|exact B]. destruct V as (R & C & _ & _ & V). cbn [n1 rows cols] in R, C, V. repeat split; auto.
  intros y x I. specialize (V y x I). destruct V as (V1 & V2).
  assert (D : away b h w (y, x) \/ ~ away b h w (y, x)) by (unfold away; lia). destruct D as [D|D]; [|right; right; auto]. rewrite (V1 D). unfold n1. cbn [px].
  assert (Ir : inside (rows r) (cols r) (y, x)) by (rewrite S1, S2; exact I).
  destruct (T y x Ir) as [E|E]; rewrite E.
  - destruct (close_dec b r (y, x) B T) as [K|K].
    + rewrite (proj1 (dilate_close b r y x B T) K). right; left. auto.
    + rewrite (proj2 (dilate_close b r y x B T) K). right; right. auto.
  - assert (K : close b r (y, x)) by (exists (y, x); cbn [fst snd]; split; [exact Ir|]; rewrite !Z.sub_diag; cbn; repeat split; try lia; rewrite E; discriminate).
    rewrite (proj1 (dilate_close b r y x B T) K). left. auto.
Qed.

Lemma given_region b cur r h w f : 0 <= b -> bytes r -> initialize_roi b cur (Some r) h w = Some f -> forall y x, inside h w (y, x) -> (px f y x <> 0 <-> away b h w (y, x) /\ close b r (y, x)).
Proof.
  intros B Y E y x I. pose proof E as G. apply given_px in G; auto. destruct G as (S1 & S2 & T & _ & _ & _ & G). destruct (G y x I) as [(P & Q & A)|[(P & Q & K & A)|(P & [A|A])]]; rewrite P.
  - split; [|discriminate]. intros _. split; auto. exists (y, x). cbn [fst snd]. rewrite S1, S2. repeat split; try apply I; try (rewrite Z.sub_diag; cbn; lia). rewrite Q. discriminate.
  - split; [auto|discriminate].
  - split; [intros X; now destruct X|intros (X & _); contradiction].
  - split; [intros X; now destruct X|intros (_ & X); contradiction].
Qed.

Lemma away_all b cur given h w f : 0 <= b -> initialize_roi b cur given h w = Some f -> rows f = h /\ cols f = w /\ 0 < nonzero f /\ forall y x, inside h w (y, x) -> px f y x <> 0 -> away b h w (y, x).
Proof.
  intros B. unfold initialize_roi. destruct ((h <=? 0) || (w <=? 0)); [discriminate|]. cbv zeta.
  match goal with |- context [match ?m with Some _ => _ | None => None end] => set (fresh := m) end.
  assert (S : forall m, fresh = Some m -> rows m = h /\ cols m = w).
  { intros m. unfold fresh. destruct given as [r|].
    - destruct (negb ((rows r =? h) && (cols r =? w))); [discriminate|]. destruct (negb (forallb _ _)); [discriminate|]. intros E; inversion E; auto.
    - destruct cur as [c|]; [destruct ((rows c =? h) && (cols c =? w)) eqn:X|]; intros E; inversion E; subst; auto. rewrite andb_true_iff, !Z.eqb_eq in X. exact X. }
  destruct fresh as [m|]; [|discriminate]. destruct (S m eq_refl) as (R & C). destruct (0 <? nonzero m); [|discriminate]. destruct (validateROI b m) as [f'|] eqn:V; [|discriminate].
  destruct (Z.ltb_spec 0 (nonzero f')); [|discriminate]. intros E; inversion E; subst f'; clear E. apply valid_px in V; auto. destruct V as (R' & C' & _ & _ & V). rewrite R, C in *. repeat split; auto.
  all: destruct (V y x H0) as (V1 & V2); assert (D : away b h w (y, x) \/ ~ away b h w (y, x)) by (unfold away; lia); destruct D as [D|D]; [apply D|exfalso; apply H1, V2, D].
Qed.

Lemma reuse b f h w : 0 <= b -> 0 < h -> 0 < w -> rows f = h -> cols f = w -> 2 * b <= h -> 2 * b <= w -> 0 < nonzero f -> (forall y x, inside h w (y, x) -> px f y x <> 0 -> away b h w (y, x)) ->
  exists f', initialize_roi b (Some f) None h w = Some f' /\ rows f' = h /\ cols f' = w /\ forall y x, inside h w (y, x) -> px f' y x = px f y x.
Proof.
  intros B H W R C Bh Bw N A. unfold initialize_roi. destruct (Z.leb_spec h 0), (Z.leb_spec w 0); try lia. cbn [orb]. rewrite R, C, !Z.eqb_refl. cbn [andb].
  rewrite (proj2 (Z.ltb_lt _ _) N). destruct (validateROI b f) as [f'|] eqn:V.
  - pose proof V as V'. apply valid_px in V'; auto. destruct V' as (R' & C' & _ & _ & V'). rewrite R, C in *.
    assert (P : forall y x, inside h w (y, x) -> px f' y x = px f y x).
    { intros y x I. destruct (V' y x I) as (V1 & V2). assert (D : away b h w (y, x) \/ ~ away b h w (y, x)) by (unfold away; lia). destruct D as [D|D]; auto.
      rewrite (V2 D). destruct (Z.eq_dec (px f y x) 0); [auto|]. exfalso. apply D, A; auto. }
    assert (E : nonzero f' = nonzero f).
    { unfold nonzero, pixels. rewrite R', C', R, C. apply count_ext_in. intros [y x] I. apply in_grid in I. cbn [fst snd] in *. rewrite P; [reflexivity|unfold inside; cbn [fst snd]; lia]. }
    rewrite E, (proj2 (Z.ltb_lt _ _) N). exists f'. auto.
  - exfalso. unfold validateROI in V. destruct (Z.leb_spec (rows f) 0), (Z.leb_spec (cols f) 0); try lia. cbn [orb] in V. destruct (0 <? b); [|discriminate].
    destruct (Z.ltb_spec (cols f) (2 * b)), (Z.ltb_spec (rows f) (2 * b)); try lia. discriminate.
Qed.

Lemma nonzero_pos m : 0 < nonzero m -> exists y x, inside (rows m) (cols m) (y, x) /\ px m y x <> 0.
Proof.
  unfold nonzero, count, pixels. intros H. destruct (filter (fun p => negb (px m (fst p) (snd p) =? 0)) (grid 0 (rows m) 0 (cols m))) as [|[y x] l] eqn:E; [cbn in H; lia|].
  assert (I : In (y, x) ((y, x) :: l)) by (left; reflexivity). rewrite <- E in I. apply filter_In in I. destruct I as (I & N). apply in_grid in I. cbn [fst snd] in *. apply negb_true_iff, Z.eqb_neq in N.
  exists y, x. unfold inside. cbn [fst snd]. split; [lia|exact N].
Qed.

Lemma initialize_again b cur given h w f : 0 <= b -> initialize_roi b cur given h w = Some f ->
  exists f', initialize_roi b (Some f) None h w = Some f' /\ rows f' = h /\ cols f' = w /\ forall y x, inside h w (y, x) -> px f' y x = px f y x.
Proof.
  intros B E. apply away_all in E; auto. destruct E as (R & C & N & A). destruct (nonzero_pos f N) as (y & x & I & P). rewrite R, C in I. pose proof (A y x I P) as D. unfold inside, away in *. cbn [fst snd] in *.
  apply reuse; auto; lia.
Qed.

Lemma some_of {A} (o : option A) d : (match o with Some _ => true | None => false end) = true -> o = Some (match o with Some v => v | None => d end).
Proof. destruct o; [reflexivity|discriminate]. Qed.
