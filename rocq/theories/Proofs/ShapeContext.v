From Coq Require Import ZArith Reals List Bool Lia Lra.
From Verif Require Import Lib.Grid Model.ShapeContext Spec.ShapeContext.
Import ListNotations.
Open Scope Z_scope.

Lemma vote_spec cf s key b : forall d, vote cf s key d b = d b + around (outer cf) (lut cf) (contour s) key b.
Proof.
  unfold vote, around. induction (contour s) as [|pt l IH]; intro d; cbn [fold_left]; [ cbn; lia |].
  rewrite IH, count_cons.
  assert (E : (match bin cf key pt with None => d | Some x => bump d x end) b = d b + (if seen (outer cf) (lut cf) key b pt then 1 else 0)); [| lia ].
  unfold bin, seen. cbv zeta. replace (fst pt - fst key + outer cf - outer cf) with (fst pt - fst key) by lia.
  replace (snd pt - snd key + outer cf - outer cf) with (snd pt - snd key) by lia.
  set (y := fst pt - fst key). set (x := snd pt - snd key).
  destruct ((y + outer cf <? 0) || (2 * outer cf + 1 <=? y + outer cf) || (x + outer cf <? 0) || (2 * outer cf + 1 <=? x + outer cf)) eqn:O.
  - assert (F : (Z.abs y <=? outer cf) && (Z.abs x <=? outer cf) = false).
    { rewrite !orb_true_iff, !Z.ltb_lt, !Z.leb_le in O. apply andb_false_iff. rewrite !Z.leb_gt. lia. }
    rewrite F. cbn [andb]. lia.
  - assert (T : (Z.abs y <=? outer cf) && (Z.abs x <=? outer cf) = true).
    { rewrite !orb_false_iff, !Z.ltb_ge, !Z.leb_gt in O. apply andb_true_iff. rewrite !Z.leb_le. lia. }
    rewrite T. cbn [andb]. destruct (Z.eqb_spec (lut cf y x) (-1)) as [E|E].
    + rewrite E. destruct (Z.eqb_spec (-1) b) as [<-|]; cbn; lia.
    + unfold bump. rewrite (Z.eqb_sym b). destruct (Z.eqb_spec (lut cf y x) b) as [<-|]; [| cbn; lia ].
      destruct (Z.eqb_spec (lut cf y x) (-1)); [ contradiction | cbn; lia ].
Qed.

Lemma same_spec p q : same p q = true <-> p = q.
Proof. unfold same. destruct p, q. cbn. rewrite andb_true_iff, !Z.eqb_eq. split; [ intros (-> & ->); reflexivity | intro E; injection E; auto ]. Qed.
Lemma same_refl p : same p p = true. Proof. now apply same_spec. Qed.
Definition share (cf : config) (s : shape) (q : Z * Z) (b : Z) : Z := if near cf s q then around (outer cf) (lut cf) (contour s) q b else 0.
Lemma within_spec s p : within s p = true <-> 0 <= fst p < rows s /\ 0 <= snd p < cols s.
Proof. unfold within. rewrite !andb_true_iff, !Z.leb_le, !Z.ltb_lt. lia. Qed.

Lemma fold_none {A B} (f : option A -> B -> option A) l : (forall b, f None b = None) -> fold_left f l None = None.
Proof. intro H. induction l as [|a l IH]; [ reflexivity |]. cbn. now rewrite H. Qed.
Lemma fill_map_spec cf s keys : (forall k, In k keys -> within s k = true) ->
  exists m, fill_map cf s keys = Some m /\ forall q b, m q b = times q keys * share cf s q b.
Proof.
  unfold fill_map. intro W.
  assert (G : forall l m0, (forall k, In k l -> within s k = true) -> exists m, fold_left (fun m key => match m with
    | None => None
    | Some m => if negb (within s key) then None else if negb (near cf s key) then Some m
                else Some (fun q => if same q key then vote cf s key (m key) else m q)
    end) l (Some m0) = Some m /\ forall q b, m q b = m0 q b + times q l * share cf s q b).
  { induction l as [|k l IH]; intros m0 H.
    - exists m0. split; [ reflexivity |]. intros q b. cbn. lia.
    - cbn [fold_left]. rewrite (H k) by now left. cbn [negb].
      assert (Hl : forall x, In x l -> within s x = true) by (intros; apply H; now right).
      destruct (near cf s k) eqn:N; cbn [negb].
      + destruct (IH (fun q => if same q k then vote cf s k (m0 k) else m0 q) Hl) as (m & E & S). exists m. split; [ exact E |].
        intros q b. rewrite S. unfold times. rewrite count_cons. fold (same q k). destruct (same q k) eqn:Q.
        * apply same_spec in Q. subst q. rewrite vote_spec. unfold share. rewrite N. lia.
        * lia.
      + destruct (IH m0 Hl) as (m & E & S). exists m. split; [ exact E |]. intros q b. rewrite S. unfold times. rewrite count_cons. fold (same q k).
        destruct (same q k) eqn:Q; [| lia ]. apply same_spec in Q. subst q. unfold share. rewrite N. lia. }
  destruct (G keys (fun _ _ => 0) W) as (m & E & S). exists m. split; [ exact E |]. intros q b. rewrite S. lia.
Qed.
Lemma fill_map_none cf s keys : (exists k, In k keys /\ within s k = false) -> fill_map cf s keys = None.
Proof.
  unfold fill_map. generalize (fun (_ : Z * Z) (_ : Z) => 0). induction keys as [|a l IH]; intros m (k & I & K); [ destruct I |].
  cbn [fold_left]. destruct (within s a) eqn:A; cbn [negb].
  - destruct I as [->|I]; [ congruence |]. destruct (near cf s a); cbn [negb]; apply IH; exists k; auto.
  - apply fold_none. reflexivity.
Qed.
Lemma fill_rows_spec cf s keys : (forall k, In k keys -> within s k = true) ->
  exists m, fill_rows cf s keys = Some m /\ length m = length keys /\ forall i b, (i < length keys)%nat -> nth i m (fun _ => 0) b = share cf s (nth i keys (0, 0)) b.
Proof.
  unfold fill_rows. intro W.
  assert (G : forall l m0, (forall k, In k l -> within s k = true) -> exists m, fold_left (fun m key => match m with
    | None => None
    | Some m => if negb (within s key) then None else Some (m ++ [if near cf s key then vote cf s key (fun _ => 0) else fun _ => 0])
    end) l (Some m0) = Some (m0 ++ m) /\ length m = length l /\ forall i b, (i < length l)%nat -> nth i m (fun _ => 0) b = share cf s (nth i l (0, 0)) b).
  { induction l as [|k l IH]; intros m0 H.
    - exists []. rewrite app_nil_r. split; [ reflexivity | split; [ reflexivity | intros; cbn in *; lia ] ].
    - cbn [fold_left]. rewrite (H k) by now left. cbn [negb].
      destruct (IH (m0 ++ [if near cf s k then vote cf s k (fun _ => 0) else fun _ => 0])) as (m & E & L & S); [ intros; apply H; now right |].
      exists ((if near cf s k then vote cf s k (fun _ => 0) else fun _ => 0) :: m). rewrite E, <- app_assoc. repeat split; [ cbn; lia |].
      intros [|i] b I; cbn [nth].
      + unfold share. destruct (near cf s k); [ rewrite vote_spec; lia | reflexivity ].
      + apply S. cbn in I. lia. }
  destruct (G keys [] W) as (m & E & L & S). exists m. auto.
Qed.

(** the state *)
Definition sound (c : call) : Prop := match c with Detect _ kp => kp <> [] | _ => True end.
Definition consistent (st : state) : Prop := full st = true -> keys st = grid 0 (fst (size st)) 0 (snd (size st)).
Lemma dense_keys cf st s : consistent st -> keys (fst (dense cf st s)) = pixels s.
Proof.
  intro C. unfold dense. cbn [fst keys]. destruct (full st) eqn:F; [| reflexivity ]. cbn [negb orb].
  destruct (same (size st) (rows s, cols s)) eqn:E; cbn [negb]; [| reflexivity ]. apply same_spec in E. rewrite (C F), E. reflexivity.
Qed.
Lemma after_consistent cf st c : sound c -> consistent st -> consistent (after cf st c).
Proof.
  intros O C. destruct c as [s|s kp|s kp]; cbn [after].
  - intros _. rewrite dense_keys by exact C. reflexivity.
  - intro F. discriminate.
  - destruct kp as [|k kp]; [ now elim O |]. intro F. discriminate.
Qed.
Lemma run_consistent cf cs : Forall sound cs -> consistent (run cf cs).
Proof.
  unfold run. assert (G : forall st, consistent st -> Forall sound cs -> consistent (fold_left (after cf) cs st)).
  { induction cs as [|c cs IH]; intros st C O; [ exact C |]. inversion O; subst. apply IH; [ now apply after_consistent | assumption ]. }
  apply G. intro F. discriminate.
Qed.
Lemma times_pixels s q : times q (pixels s) = if within s q then 1 else 0.
Proof.
  unfold times, pixels. destruct (within s q) eqn:W.
  - apply within_spec in W. unfold count, grid.
    rewrite (filter_ext _ (fun p => (fst p =? fst q) && (snd p =? snd q))) by (intro p; now rewrite (Z.eqb_sym (fst q)), (Z.eqb_sym (snd q))).
    rewrite (filter_prod (fun y => y =? fst q) (fun x => x =? snd q)), prod_len.
    assert (F : forall n k, 0 <= k < n -> length (filter (fun y => y =? k) (zrange 0 n)) = 1%nat).
    { intros n k K. rewrite (filter_ext _ (fun x => (k <=? x) && (x <? k + 1))).
      - rewrite filter_zrange by lia. unfold zrange. rewrite zseq_length. lia.
      - intro x. apply eq_true_iff_eq. rewrite andb_true_iff, Z.eqb_eq, Z.leb_le, Z.ltb_lt. lia. }
    rewrite !F by lia. reflexivity.
  - unfold count. rewrite filter_none; [ reflexivity |]. intros p P. apply in_grid in P. apply not_true_iff_false. intro E.
    rewrite andb_true_iff, !Z.eqb_eq in E. apply not_true_iff_false in W. apply W. apply within_spec. lia.
Qed.
Lemma dense_ok cf cs s : Forall sound cs -> exists m, snd (dense cf (run cf cs) s) = Some m /\
  forall q b, within s q = true -> m q b = share cf s q b.
Proof.
  intro O. pose proof (dense_keys cf (run cf cs) s (run_consistent cf cs O)) as K. unfold dense in *. cbn [fst snd keys] in *. rewrite K.
  destruct (fill_map_spec cf s (pixels s)) as (m & E & S).
  - intros (y, x) I. apply in_grid in I. apply within_spec. cbn in I |- *. lia.
  - exists m. split; [ exact E |]. intros q b W. rewrite S, times_pixels, W. lia.
Qed.
Lemma keyed_ok cf st s kp : (forall k, In k kp -> within s k = true) -> kp <> [] -> exists m, snd (keyed cf st s kp) = Some (Some m) /\
  forall q b, m q b = times q kp * share cf s q b.
Proof.
  intros W N. unfold keyed. cbn [snd]. destruct kp as [|k kp]; [ easy |]. destruct (fill_map_spec cf s (k :: kp) W) as (m & E & S).
  exists m. rewrite E. split; [ reflexivity | exact S ].
Qed.
Lemma keyed_contour cf st s : (forall k, In k (contour s) -> within s k = true) -> contour s <> [] -> exists m, snd (keyed cf st s []) = Some (Some m) /\
  forall q b, m q b = times q (contour s) * share cf s q b.
Proof.
  intros W N. unfold keyed. cbn [snd]. destruct (contour s) as [|k kp] eqn:C; [ easy |]. rewrite <- C in *. destruct (fill_map_spec cf s (contour s) W) as (m & E & S).
  exists m. rewrite E. split; [ reflexivity | exact S ].
Qed.
Lemma detect_ok cf st s kp : (forall k, In k kp -> within s k = true) -> kp <> [] -> exists m, snd (detect cf st s kp) = Some (Some m) /\ length m = length kp /\
  forall i b, (i < length kp)%nat -> nth i m (fun _ => 0) b = share cf s (nth i kp (0, 0)) b.
Proof.
  intros W N. unfold detect. destruct kp as [|k kp]; [ easy |]. destruct (fill_rows_spec cf s (k :: kp) W) as (m & E & L & S).
  exists m. cbn [snd]. rewrite E. auto.
Qed.

(** skipping *)
Definition covered (cf : config) : Prop := forall dy dx, Z.abs dy <= outer cf -> Z.abs dx <= outer cf -> lut cf dy dx <> -1 -> kernel cf dy dx = true.
Definition drawn (s : shape) : Prop := forall p, In p (contour s) -> within s p = true /\ mask s (fst p) (snd p) = true.
Lemma share_all cf s q b : covered cf -> drawn s -> share cf s q b = around (outer cf) (lut cf) (contour s) q b.
Proof.
  intros C D. unfold share. destruct (near cf s q) eqn:N; [ reflexivity |]. symmetry. unfold around, count. rewrite filter_none; [ reflexivity |].
  intros p P. apply not_true_iff_false. intro S. unfold seen in S. rewrite !andb_true_iff, !Z.leb_le, Z.eqb_eq, negb_true_iff, Z.eqb_neq in S.
  destruct S as (((Y & X) & L) & B). destruct (D p P) as (W & M). apply not_true_iff_false in N. apply N. unfold near. apply existsb_exists.
  exists (fst p - fst q, snd p - snd q). split; [ apply in_grid; cbn [fst snd]; lia |]. cbn [fst snd].
  replace (fst q + (fst p - fst q)) with (fst p) by lia. replace (snd q + (snd p - snd q)) with (snd p) by lia.
  rewrite C, M by (congruence || lia). replace (fst p, snd p) with p by now destruct p. rewrite W. reflexivity.
Qed.
Lemma base_pow (nb : nat) : (1 <= nb)%nat -> (Rpower (INR nb) (1 / INR nb) ^ nb = INR nb)%R.
Proof.
  intro N. assert (P : (0 < INR nb)%R) by (apply lt_0_INR; lia). rewrite <- Rpower_pow by (unfold Rpower; apply exp_pos).
  rewrite Rpower_mult. replace (1 / INR nb * INR nb)%R with 1%R by (field; lra). now apply Rpower_1.
Qed.
Lemma base_ge1 (nb : nat) : (1 <= nb)%nat -> (1 <= Rpower (INR nb) (1 / INR nb))%R.
Proof.
  intro N. assert (P : (1 <= INR nb)%R) by (change 1%R with (INR 1); now apply le_INR).
  unfold Rpower. apply Rle_trans with (exp 0); [ rewrite exp_0; lra |]. assert (H : (0 <= 1 / INR nb * ln (INR nb))%R).
  { apply Rmult_le_pos; [ apply Rlt_le, Rdiv_lt_0_compat; lra |]. destruct (Req_dec (INR nb) 1) as [E|E]; [ rewrite E, ln_1; lra |]. apply Rlt_le. apply Rle_lt_trans with (ln 1); [ rewrite ln_1; lra |]. apply ln_increasing; lra. }
  destruct H as [H|H]; [ left; now apply exp_increasing | right; now rewrite <- H ].
Qed.
Lemma bounds_in nb outer inner k : (2 <= nb)%nat -> 0 < outer -> (bound nb outer inner (nb - 2) <= IZR outer)%R -> (k < nb)%nat -> (bound nb outer inner k <= IZR outer)%R.
Proof.
  intros N O B K. assert (P : (1 < INR nb)%R) by (change 1%R with (INR 1); apply lt_INR; lia). assert (Q : (0 < IZR outer)%R) by now apply IZR_lt.
  destruct (Nat.eq_dec k (nb - 1)) as [->|D].
  - unfold bound. rewrite Nat.eqb_refl. replace (nb - 1 + 1)%nat with nb by lia. rewrite base_pow by lia. right. field. lra.
  - eapply Rle_trans; [| exact B ]. unfold bound. destruct (Nat.eqb_spec k (nb - 1)); [ contradiction |]. destruct (Nat.eqb_spec (nb - 2) (nb - 1)); [ lia |].
    apply Rplus_le_compat_r, Rmult_le_compat_r; [ lra |]. unfold Rdiv. apply Rmult_le_compat_r; [ apply Rlt_le, Rinv_0_lt_compat; lra |].
    apply Rplus_le_compat_r. apply Rle_pow; [ apply base_ge1; lia | lia ].
Qed.
Lemma radial_some nb outer inner d : forall f k j, radial nb outer inner d k f = Some j -> (k <= j < k + f)%nat /\ (d <= bound nb outer inner j)%R.
Proof.
  induction f as [|f IH]; intros k j H; [ discriminate |]. cbn in H. destruct (Rle_dec d (bound nb outer inner k)) as [L|_].
  - injection H as <-. split; [ lia | exact L ].
  - apply IH in H. destruct H. split; [ lia | assumption ].
Qed.
Lemma lienhart_reach nb outer inner ang dy dx : (2 <= nb)%nat -> 0 < outer -> (bound nb outer inner (nb - 2) <= IZR outer)%R ->
  lienhart nb outer inner ang dy dx <> -1 -> dy * dy + dx * dx <= outer * outer.
Proof.
  intros N O B L. unfold lienhart in L. destruct ((dy =? 0) && (dx =? 0) || (nb =? 1)%nat); [ contradiction |].
  destruct (radial nb outer inner (sqrt (IZR (dy * dy + dx * dx))) 0 nb) as [k|] eqn:R; [| contradiction ].
  apply radial_some in R. destruct R as (K & D). pose proof (bounds_in nb outer inner k N O B ltac:(lia)) as U.
  assert (S : (sqrt (IZR (dy * dy + dx * dx)) <= IZR outer)%R) by lra.
  apply le_IZR. rewrite mult_IZR. assert (P : (0 <= IZR (dy * dy + dx * dx))%R) by (apply IZR_le; nia).
  rewrite <- (sqrt_sqrt (IZR (dy * dy + dx * dx))) by exact P.
  apply Rmult_le_compat; auto using sqrt_pos.
Qed.
Lemma extractor_covered nb out inner ang : (2 <= nb)%nat -> 0 < out -> (bound nb out inner (nb - 2) <= IZR out)%R -> covered (extractor nb out inner ang).
Proof.
  intros N O B dy dx _ _ L. cbn in *. unfold disc. apply Z.leb_le. pose proof (lienhart_reach nb out inner ang dy dx N O B L). nia.
Qed.
Lemma one_ring out inner ang s q b : share (extractor 1 out inner ang) s q b = 0.
Proof.
  unfold share. destruct (near _ s q); [| reflexivity ]. unfold around, count. rewrite filter_none; [ reflexivity |]. intros p _. unfold seen. cbn [extractor lut].
  unfold lienhart. rewrite orb_true_r. destruct (Z.eqb_spec (-1) b) as [<-|]; [ | rewrite andb_false_r; reflexivity ]. cbn. apply andb_false_r.
Qed.

Lemma rpower_sqrt2 : Rpower (INR 2) (1 / INR 2) = sqrt 2.
Proof. replace (INR 2) with 2%R by (cbn; lra). replace (1 / 2)%R with (/ 2)%R by field. apply Rpower_sqrt. lra. Qed.
Lemma corner_counted ang : lienhart 2 20 19 ang 19 19 = ang 19 19 * 2 + 1.
Proof.
  unfold lienhart. cbn [radial Z.eqb andb orb Nat.eqb]. destruct (Rle_dec _ _) as [_|N]; [ cbn; lia |]. exfalso. apply N. unfold bound. cbn [Nat.eqb Nat.sub Nat.add].
  rewrite rpower_sqrt2. replace (INR 2) with 2%R by (cbn; lra).
  assert (S : (1.4 <= sqrt 2)%R). { rewrite <- (sqrt_square 1.4) by lra. apply sqrt_le_1_alt. lra. }
  apply Rle_trans with 27%R; [| cbn; lra ]. rewrite <- (sqrt_square 27) by lra. apply sqrt_le_1_alt. cbn. lra.
Qed.
Definition dots (l : list (Z * Z)) : shape := {| rows := 60; cols := 60; mask := fun y x => existsb (same (y, x)) l; contour := l |}.
Lemma dots_drawn l : forallb (within (dots [])) l = true -> drawn (dots l).
Proof.
  intros F p P. rewrite forallb_forall in F. split; [ now apply F |]. cbn. apply existsb_exists. exists p. split; [ exact P |]. destruct p. apply same_spec. reflexivity.
Qed.
Lemma dots_near cf l q : forallb (within (dots [])) l = true -> near cf (dots l) q =
  existsb (fun p => (Z.abs (fst p - fst q) <=? outer cf + 2) && (Z.abs (snd p - snd q) <=? outer cf + 2) && kernel cf (fst p - fst q) (snd p - snd q)) l.
Proof.
  intro F. rewrite forallb_forall in F. apply eq_true_iff_eq. unfold near. rewrite !existsb_exists. split.
  - intros ((y, x) & I & H). apply in_grid in I. cbn [fst snd] in *. rewrite !andb_true_iff in H. destruct H as ((K & W) & M). cbn in M.
    apply existsb_exists in M. destruct M as ((py, px) & P & E). apply same_spec in E. injection E as <- <-. exists (fst q + y, snd q + x). split; [ exact P |]. cbn [fst snd].
    replace (fst q + y - fst q) with y by lia. replace (snd q + x - snd q) with x by lia. rewrite K, !andb_true_iff, !Z.leb_le. lia.
  - intros (p & P & H). rewrite !andb_true_iff, !Z.leb_le in H. destruct H as ((Y & X) & K). exists (fst p - fst q, snd p - snd q). split; [ apply in_grid; cbn [fst snd]; lia |].
    cbn [fst snd]. rewrite K. replace (fst q + (fst p - fst q)) with (fst p) by lia. replace (snd q + (snd p - snd q)) with (snd p) by lia.
    cbn [andb]. apply andb_true_iff. split; [ destruct p; now apply F |]. cbn. apply existsb_exists. exists p. split; [ exact P |]. now rewrite (surjective_pairing p), same_refl.
Qed.
Lemma skip_differs ang : 0 <= ang 19 19 ->
  share (extractor 2 20 19 ang) (dots [(49, 49)]) (30, 30) (ang 19 19 * 2 + 1) = 0 /\ share (extractor 2 20 19 ang) (dots [(49, 49); (30, 52)]) (30, 30) (ang 19 19 * 2 + 1) = 1.
Proof.
  intro A. unfold share. rewrite !dots_near by reflexivity. split; [ reflexivity |].
  match goal with |- (if ?c then _ else _) = _ => replace c with true by reflexivity end.
  unfold around, dots, contour. rewrite !count_cons. unfold seen. cbn [extractor ShapeContext.outer lut fst snd].
  replace (49 - 30) with 19 by lia. rewrite corner_counted, Z.eqb_refl. replace (negb (ang 19 19 * 2 + 1 =? -1)) with true by (symmetry; apply negb_true_iff, Z.eqb_neq; lia). reflexivity.
Qed.

Lemma near_spec cf s y x : near cf s (y, x) = true <-> exists dy dx, Z.abs dy <= outer cf + 2 /\ Z.abs dx <= outer cf + 2 /\ kernel cf dy dx = true /\
  0 <= y + dy < rows s /\ 0 <= x + dx < cols s /\ mask s (y + dy) (x + dx) = true.
Proof.
  unfold near. rewrite existsb_exists. cbn [fst snd]. split.
  - intros ((dy, dx) & I & H). apply in_grid in I. cbn [fst snd] in *. rewrite !andb_true_iff, within_spec in H. cbn [fst snd] in H. exists dy, dx. destruct H as ((? & ?) & ?). repeat split; auto; lia.
  - intros (dy & dx & Y & X & K & R & C & M). exists (dy, dx). split; [ apply in_grid; cbn [fst snd]; lia |]. cbn [fst snd]. rewrite K, M, (proj2 (within_spec _ _)) by (cbn; lia). reflexivity.
Qed.
