From Coq Require Import ZArith List Bool Lia.
From Verif Require Import Lib.Grid Model.RoiTable Spec.RoiTable Model.Cosegm Spec.Cosegm.
Import ListNotations.
Open Scope Z_scope.

Lemma Forall2_len {A B} (R : A -> B -> Prop) l k : Forall2 R l k -> length l = length k.
Proof. induction 1; cbn [length]; congruence. Qed.
Lemma empty_given m : empty m = false <-> given m.
Proof. unfold empty, given. rewrite orb_false_iff, !Z.leb_gt. reflexivity. Qed.
Lemma empty_not m : empty m = true <-> ~ given m.
Proof. rewrite <- empty_given. destruct (empty m); split; congruence. Qed.

Lemma in_pixels m p : In p (pixels m) <-> inside (rows m) (cols m) p.
Proof. unfold pixels, grid, inside. destruct p as [y x]. rewrite in_prod_iff, !in_zrange. cbn [fst snd]. lia. Qed.
Lemma nodup_prod {A B} (l : list A) (k : list B) : NoDup l -> NoDup k -> NoDup (list_prod l k).
Proof.
  intros L K. induction L as [|a l N L IH]; [constructor|]. cbn [list_prod].
  assert (D : forall u v : list (A * B), NoDup u -> NoDup v -> (forall p, In p u -> ~ In p v) -> NoDup (u ++ v)).
  { induction 1 as [|p u P U IU]; intros V D; [exact V|]. cbn [app]. constructor.
    - rewrite in_app_iff. intros [X|X]; [exact (P X)|exact (D p (or_introl eq_refl) X)].
    - apply IU; [exact V|]. intros q Q. apply D. now right. }
  apply D; [|exact IH|].
  - apply FinFun.Injective_map_NoDup; [|exact K]. intros x y E. now inversion E.
  - intros [x y] I J. apply in_map_iff in I. destruct I as (z & E & _). inversion E; subst. apply in_prod_iff in J. tauto.
Qed.
Lemma nonzero_counted m : counted (at_ m) (rows m) (cols m) (nonzero m).
Proof.
  exists (filter (fun p => negb (px m (fst p) (snd p) =? 0)) (pixels m)). split; [|split; [|reflexivity]].
  - apply NoDup_filter. unfold pixels, grid, zrange. apply nodup_prod; apply nodup_zseq.
  - intros p. rewrite filter_In, in_pixels, negb_true_iff, Z.eqb_neq. reflexivity.
Qed.
Lemma counted_pos v h w n : counted v h w n -> (0 < n <-> exists p, inside h w p /\ v p <> 0).
Proof.
  intros (l & _ & I & ->). split.
  - destruct l as [|p l]; [cbn; lia|]. intros _. exists p. apply I. now left.
  - intros (p & P). apply I in P. destruct l; [destruct P|]. cbn [length]. lia.
Qed.
Lemma counted_le v v' h w n n' : counted v h w n -> counted v' h w n' -> (forall p, inside h w p -> v p <> 0 -> v' p <> 0) -> n <= n'.
Proof.
  intros (l & N & I & ->) (l' & _ & I' & ->) H. apply inj_le. apply NoDup_incl_length; [exact N|]. intros p P. apply I in P. apply I'. destruct P. auto.
Qed.
Lemma counted_total v h w n : 0 <= h -> 0 <= w -> counted v h w n -> n <= h * w.
Proof.
  intros H W (l & N & I & ->). assert (L : (length l <= length (grid 0%Z h 0%Z w))%nat).
  { apply NoDup_incl_length; [exact N|]. intros p P. apply I in P. apply (in_pixels (Mask h w (fun _ _ => 0))). exact (proj1 P). }
  unfold grid, zrange in L. rewrite prod_length, !zseq_length in L. apply inj_le in L. rewrite Nat2Z.inj_mul, !Z2Nat.id in L by assumption. exact L.
Qed.
Lemma nonzero_pos m : 0 < nonzero m <-> exists p, inside (rows m) (cols m) p /\ at_ m p <> 0.
Proof. apply counted_pos, nonzero_counted. Qed.

(* what validation makes of one mask *)
Definition shrunk (b : Z) (m m' : mask) : Prop := cleaned b (at_ m) (rows m) (cols m) m'.
Lemma crop_shrunk b m m' : crop b m = Some m' -> shrunk b m m'.
Proof.
  unfold crop. destruct ((cols m <? 2 * b) || (rows m <? 2 * b)); [discriminate|]. intros E. injection E as <-. unfold shrunk, cleaned. split; [reflexivity|]. split; [reflexivity|]. intros p I. cbn [px]. change (match b with 0 => 0 | Z.pos q => Z.pos q~0 | Z.neg r => Z.neg r~0 end) with (2 * b). split.
  - intros A. unfold away in A. match goal with |- (if ?c then _ else _) = _ => destruct c eqn:E end; [reflexivity|exfalso]. rewrite !andb_false_iff, !Z.leb_gt, !Z.ltb_ge in E. lia.
  - intros A. unfold away in A. match goal with |- (if ?c then _ else _) = _ => destruct c eqn:E end; [exfalso|reflexivity]. rewrite !andb_true_iff, !Z.leb_le, !Z.ltb_lt in E. apply A. lia.
Qed.
Lemma crop_some b m : crop b m <> None <-> 2 * b <= rows m /\ 2 * b <= cols m.
Proof.
  unfold crop. destruct ((cols m <? 2 * b) || (rows m <? 2 * b)) eqn:E.
  - apply orb_true_iff in E. rewrite !Z.ltb_lt in E. split; [congruence|lia].
  - apply orb_false_iff in E. rewrite !Z.ltb_ge in E. split; [lia|congruence].
Qed.
Lemma crop_all_spec b : forall ms, (snd (crop_all b ms) = true <-> Forall (fun m => 2 * b <= rows m /\ 2 * b <= cols m) ms) /\ (snd (crop_all b ms) = true -> Forall2 (shrunk b) ms (fst (crop_all b ms))).
Proof.
  induction ms as [|m r [A B]]; cbn [crop_all]; [cbn; split; [split; constructor|constructor]|].
  assert (S := crop_some b m). destruct (crop b m) as [m'|] eqn:E.
  - destruct (crop_all b r) as [r' ok]. cbn [fst snd] in *. split.
    + rewrite Forall_cons_iff. rewrite A. split; [intros F; split; [apply S; discriminate|exact F]|tauto].
    + intros T. constructor; [now apply crop_shrunk|auto].
  - cbn [snd]. split; [|discriminate]. rewrite Forall_cons_iff. split; [discriminate|]. intros [X _]. apply S in X. congruence.
Qed.
Lemma shrunk_none m : shrunk 0 m m.
Proof. unfold shrunk, cleaned, at_. repeat split; auto. intros N. destruct N. unfold away, inside in *. lia. Qed.
Lemma validate_spec b ms : 0 <= b -> (snd (validateROIs b ms) = true <-> Forall (settable b) ms) /\ (snd (validateROIs b ms) = true -> Forall2 (shrunk b) ms (fst (validateROIs b ms))).
Proof.
  intros P. unfold validateROIs.
  assert (F : forallb (fun m => negb (empty m) && (0 <? nonzero m)) ms = true <-> Forall (fun m => given m /\ exists p, inside (rows m) (cols m) p /\ at_ m p <> 0) ms).
  { rewrite forallb_forall, Forall_forall. split; intros H m I; specialize (H m I); [rewrite andb_true_iff, negb_true_iff, empty_given, Z.ltb_lt, nonzero_pos in H; exact H|rewrite andb_true_iff, negb_true_iff, empty_given, Z.ltb_lt, nonzero_pos; exact H]. }
  assert (S : Forall (settable b) ms <-> Forall (fun m => given m /\ exists p, inside (rows m) (cols m) p /\ at_ m p <> 0) ms /\ Forall (fun m => 2 * b <= rows m /\ 2 * b <= cols m) ms).
  { rewrite !Forall_forall. unfold settable. split; [intros H; split; intros m I; specialize (H m I); tauto|]. intros [H K] m I. specialize (H m I). specialize (K m I). tauto. }
  destruct (forallb _ ms).
  - destruct (Z.ltb_spec 0 b) as [L|L].
    + destruct (crop_all_spec b ms) as [A B]. split; [rewrite S, A; tauto|exact B].
    + assert (b = 0) as -> by lia. cbn [fst snd]. split.
      * split; [intros _|reflexivity]. apply S. destruct F as [F _]. specialize (F eq_refl). split; [exact F|]. rewrite Forall_forall in *. intros m I. destruct (F m I) as [[G1 G2] _]. lia.
      * intros _. clear. induction ms; constructor; auto. apply shrunk_none.
  - cbn [snd]. split; [|discriminate]. rewrite S, <- F. split; [discriminate|intros [X _]; discriminate X].
Qed.

Definition full (i : input) (m : mask) : Prop := let '(h, w, g) := i in rows m = h /\ cols m = w /\ 0 < h /\ 0 < w /\ (given g -> m = g) /\ meant g (at_ m).
Definition full_orig (i : input) (s : slot) : Prop := let '(h, w, g) := i in exists v, meant g v /\ counted v h w (orig s).
Definition accepted (i : input) : Prop := let '(h, w, g) := i in 0 < h /\ 0 < w /\ (given g -> rows g = h /\ cols g = w) /\ exists p, inside h w p /\ (given g -> at_ g p <> 0).
Lemma prepare_spec : forall ins ss, length ins = length ss ->
  (snd (prepare ins ss) <> None <-> Forall accepted ins) /\ forall ms, snd (prepare ins ss) = Some ms -> Forall2 full ins ms /\ Forall2 full_orig ins (fst (prepare ins ss)).
Proof.
  induction ins as [|[[h w] g] ir IH]; intros [|s sr] L; try discriminate L; cbn [prepare].
  - cbn. split; [split; [constructor|discriminate]|]. intros ms E. injection E as <-. split; constructor.
  - injection L as L. destruct (IH sr L) as [A B]. clear IH. rewrite Forall_cons_iff. cbn [accepted].
    destruct ((h <=? 0) || (w <=? 0)) eqn:P.
    { cbn [snd]. apply orb_true_iff in P. rewrite !Z.leb_le in P. split; [split; [congruence|lia]|discriminate]. }
    apply orb_false_iff in P. rewrite !Z.leb_gt in P. destruct P as [P Q].
    destruct (negb (empty g) && negb ((rows g =? h) && (cols g =? w))) eqn:Z.
    { cbn [snd]. rewrite andb_true_iff, !negb_true_iff, empty_given, andb_false_iff, !Z.eqb_neq in Z. destruct Z as [G Z]. split; [|discriminate]. split; [congruence|]. intros [(_ & _ & X & _) _]. specialize (X G). lia. }
    set (m := if empty g then _ else g).
    assert (M : full (h, w, g) m).
    { unfold m, full. destruct (empty g) eqn:E.
      - apply empty_not in E. cbn [rows cols]. repeat split; auto; [intros G; contradiction|]. right. split; [exact E|reflexivity].
      - cbn [negb andb] in Z. apply empty_given in E. rewrite negb_false_iff, andb_true_iff, !Z.eqb_eq in Z. destruct Z. repeat split; auto. left. split; [exact E|reflexivity]. }
    assert (C := nonzero_counted m). assert (N := nonzero_pos m). destruct M as (R & K & _ & _ & G & V). rewrite R, K in C, N.
    assert (T : 0 < nonzero m <-> exists p, inside h w p /\ (given g -> at_ g p <> 0)).
    { rewrite N. split; intros (p & I & X); exists p; (split; [exact I|]).
      - intros Y. rewrite (G Y) in X. exact X.
      - destruct V as [[Y _]|[Y V]]; [rewrite (G Y); exact (X Y)|]. rewrite V. discriminate. }
    destruct (Z.ltb_spec 0 (nonzero m)) as [X|X].
    + destruct (prepare ir sr) as [sr' o]. cbn [fst snd] in *. split.
      * destruct o as [o|]; cbn [option_map].
        -- split; [intros _|discriminate]. split; [|apply A; discriminate]. split; [exact P|]. split; [exact Q|]. split; [intros Y; rewrite <- (G Y); split; assumption|]. apply T, X.
        -- split; [congruence|]. intros [_ F]. apply A in F. congruence.
      * intros ms E. destruct o as [o|]; cbn [option_map] in E; [|discriminate]. injection E as <-. destruct (B o eq_refl) as [B1 B2]. split; constructor; auto.
        -- unfold full. repeat split; auto.
        -- unfold full_orig. cbn [orig]. exists (at_ m). split; assumption.
    + cbn [snd]. split; [|discriminate]. split; [congruence|]. intros [(_ & _ & _ & Y) _]. apply T in Y. lia.
Qed.
Lemma finish_spec : forall ms ss, length ms = length ss -> (snd (finish ms ss) = true <-> Forall (fun m => 0 < nonzero m) ms) /\
  (snd (finish ms ss) = true -> map roi (fst (finish ms ss)) = ms /\ map orig (fst (finish ms ss)) = map orig ss /\ Forall (fun s => final s = nonzero (roi s) /\ total s = rows (roi s) * cols (roi s)) (fst (finish ms ss))).
Proof.
  induction ms as [|m mr IH]; intros [|s sr] L; try discriminate L; cbn [finish].
  - cbn. split; [split; constructor|]. intros _. repeat split. constructor.
  - injection L as L. destruct (IH sr L) as [A B]. rewrite Forall_cons_iff. destruct (Z.ltb_spec 0 (nonzero m)) as [X|X].
    + destruct (finish mr sr) as [sr' ok]. cbn [fst snd] in *. split; [tauto|]. intros T. destruct (B T) as (B1 & B2 & B3). cbn [map roi orig]. rewrite B1, B2. repeat split. constructor; [split; reflexivity|exact B3].
    + cbn [snd]. split; [split; [discriminate|lia]|discriminate].
Qed.

Lemma away_inside b h w p : 0 <= b -> away b h w p -> inside h w p.
Proof. unfold away, inside. lia. Qed.
Lemma cleaned_pos b v h w m : 0 <= b -> cleaned b v h w m -> (0 < nonzero m <-> exists p, away b h w p /\ v p <> 0).
Proof.
  intros B (R & C & P). rewrite nonzero_pos, R, C. split; intros (p & I & N); exists p.
  - destruct (P p I) as [P1 P2]. assert (D : away b h w p \/ ~ away b h w p) by (unfold away; lia). destruct D as [D|D].
    + split; [exact D|]. rewrite <- (P1 D). exact N.
    + exfalso. apply N. exact (P2 D).
  - assert (J := away_inside b h w p B I). split; [exact J|]. unfold at_. rewrite (proj1 (P p J) I). exact N.
Qed.
Lemma accepted_usable b i : 0 <= b -> usable b i -> accepted i.
Proof. destruct i as [[h w] g]. intros B (H & W & G & p & A & N). repeat split; auto; try (apply G; assumption). exists p. split; [exact (away_inside b h w p B A)|exact N]. Qed.

Lemma chain b : 0 <= b -> forall ins ms, Forall2 full ins ms -> forall ms', Forall2 (shrunk b) ms ms' -> (Forall (fun m => 0 < nonzero m) ms' <-> Forall (usable b) ins).
Proof.
  intros B. induction 1 as [|[[h w] g] m ins ms F FS IH]; intros ms' S; inversion S as [|? m' ? r' S1 S2]; subst; [split; constructor|].
  rewrite !Forall_cons_iff, (IH r' S2). destruct F as (R & C & H & W & G & V). unfold shrunk in S1. rewrite R, C in S1. rewrite (cleaned_pos b _ _ _ _ B S1). cbn [usable].
  assert (T : (exists p, away b h w p /\ at_ m p <> 0) <-> 0 < h /\ 0 < w /\ (given g -> rows g = h /\ cols g = w) /\ exists p, away b h w p /\ (given g -> at_ g p <> 0)).
  { split.
    - intros (p & A & N). split; [exact H|]. split; [exact W|]. split; [intros Y; rewrite <- (G Y); split; assumption|]. exists p. split; [exact A|]. intros Y. rewrite <- (G Y). exact N.
    - intros (_ & _ & _ & p & A & N). exists p. split; [exact A|]. destruct V as [[Y _]|[_ V]]; [rewrite (G Y); exact (N Y)|]. rewrite V. discriminate. }
  rewrite T. reflexivity.
Qed.
Lemma full_settable b : 0 <= b -> forall ins ms, Forall2 full ins ms -> Forall (usable b) ins -> Forall (settable b) ms.
Proof.
  intros B. induction 1 as [|[[h w] g] m ins ms F FS IH]; intros U; [constructor|]. apply Forall_cons_iff in U. destruct U as [(_ & _ & _ & p & A & N) U]. constructor; [|exact (IH U)].
  destruct F as (R & C & H & W & G & V). unfold settable, given. rewrite R, C. split; [split; assumption|]. split; [|unfold away in A; lia]. exists p. split; [exact (away_inside b h w p B A)|]. destruct V as [[Y _]|[_ V]]; [rewrite (G Y); exact (N Y)|]. rewrite V. discriminate.
Qed.
Lemma ready_all b ins : forall ms, Forall2 full ins ms -> forall ss1, Forall2 full_orig ins ss1 -> forall ss', Forall2 (shrunk b) ms (map roi ss') -> map orig ss' = map orig ss1 -> Forall (fun s => final s = nonzero (roi s) /\ total s = rows (roi s) * cols (roi s)) ss' -> Forall2 (ready b) ins ss'.
Proof.
  induction 1 as [|[[h w] g] m ins ms F FS IH]; intros ss1 O ss' S E T; inversion O as [|? s1 ? r1 O1 O2]; subst; destruct ss' as [|s' r']; cbn [map] in *; try discriminate E; [constructor|].
  inversion S as [|? ? ? ? S1 S2]; subst. injection E as E1 E2. apply Forall_cons_iff in T. destruct T as [[T1 T2] T]. constructor; [|exact (IH r1 O2 r' S2 E2 T)].
  destruct F as (R & C & H & W & G & V). unfold shrunk in S1. rewrite R, C in S1. destruct O1 as (v & V1 & V2). cbn [ready]. exists v.
  assert (X : at_ m = v) by (destruct V as [[Y V]|[Y V]], V1 as [[Z1 V1]|[Z1 V1]]; try contradiction; congruence).
  split; [exact V1|]. rewrite <- X. split; [exact S1|]. rewrite X. split; [rewrite E1; exact V2|]. destruct S1 as (S3 & S4 & _). split; [|rewrite T2, S3, S4; reflexivity]. rewrite T1. rewrite <- S3, <- S4. apply nonzero_counted.
Qed.
Lemma initialize_spec b ins ss : 0 <= b -> length ins = length ss -> (snd (initialize b ins ss) = true <-> Forall (usable b) ins) /\ (snd (initialize b ins ss) = true -> Forall2 (ready b) ins (fst (initialize b ins ss))).
Proof.
  intros B L. unfold initialize. destruct (prepare_spec ins ss L) as [A P]. destruct (prepare ins ss) as [ss1 o]. cbn [fst snd] in *. destruct o as [ms|].
  - destruct (P ms eq_refl) as [F O]. destruct (validate_spec b ms B) as [V W]. destruct (validateROIs b ms) as [ms' ok]. cbn [fst snd] in *. destruct ok.
    + specialize (W eq_refl). assert (L2 : length ms' = length ss1). { rewrite <- (Forall2_len _ _ _ W), <- (Forall2_len _ _ _ F). exact (Forall2_len _ _ _ O). }
      destruct (finish_spec ms' ss1 L2) as [X Y]. split; [rewrite X; exact (chain b B ins ms F ms' W)|]. intros T. destruct (Y T) as (Y1 & Y2 & Y3). apply (ready_all b ins ms F ss1 O); auto. rewrite Y1. exact W.
    + cbn [snd]. split; [|discriminate]. split; [discriminate|]. intros U. apply V. exact (full_settable b B ins ms F U).
  - cbn [snd]. split; [|discriminate]. split; [discriminate|]. intros U. exfalso. apply (proj2 A); [|reflexivity]. rewrite Forall_forall in *. intros i I. exact (accepted_usable b i B (U i I)).
Qed.

Lemma store_spec : forall ms ss, length ms = length ss -> map roi (store ms ss) = ms /\ map (fun s => (orig s, final s, total s)) (store ms ss) = map (fun s => (orig s, final s, total s)) ss.
Proof.
  induction ms as [|m mr IH]; intros [|s sr] L; try discriminate L; [split; reflexivity|]. injection L as L. destruct (IH sr L) as [A B]. cbn [store map roi orig final total]. rewrite A, B. split; reflexivity.
Qed.
Lemma ready_settable b i s : 0 <= b -> usable b i -> ready b i s -> settable b (roi s).
Proof.
  destruct i as [[h w] g]. intros B (H & W & G & p & A & N) (v & M & C & _). destruct C as (R & K & P). unfold settable, given. rewrite R, K. split; [split; assumption|]. split; [|unfold away in A; lia].
  exists p. assert (J := away_inside b h w p B A). split; [exact J|]. unfold at_. rewrite (proj1 (P p J) A). destruct M as [[Y ->]|[_ ->]]; [exact (N Y)|discriminate].
Qed.
Lemma shrunk_twice b v h w m m' : cleaned b v h w m -> shrunk b m m' -> same m m'.
Proof.
  intros (R & C & P) (R' & C' & P'). split; [exact R'|]. split; [exact C'|]. intros p I. destruct (P' p I) as [A N]. assert (D : away b h w p \/ ~ away b h w p) by (unfold away; lia). rewrite R, C in *. destruct D as [D|D]; [exact (A D)|]. unfold at_. rewrite (N D). symmetry. exact (proj2 (P p I) D).
Qed.
Lemma ready_counts b i s : 0 <= b -> usable b i -> ready b i s -> 0 < final s <= orig s /\ orig s <= total s.
Proof.
  destruct i as [[h w] g]. intros B U Q. assert (S := ready_settable b _ s B U Q). destruct U as (H & W & _ & _). destruct Q as (v & M & C & O & F & T). destruct S as (_ & S & _). destruct C as (R & K & P). rewrite R, K in S.
  split; [split|].
  - apply (counted_pos _ _ _ _ F). exact S.
  - apply (counted_le _ _ _ _ _ _ F O). intros p I N. destruct (P p I) as [P1 P2]. assert (D : away b h w p \/ ~ away b h w p) by (unfold away; lia). unfold at_ in N. destruct D as [D|D]; [rewrite <- (P1 D); exact N|]. rewrite (P2 D) in N. congruence.
  - rewrite T. apply (counted_total v); auto; lia.
Qed.
