(* Every unique value gets a color of its own. *)
From Coq Require Import ZArith QArith List Bool Permutation Sorted FinFun Lia.
From Verif Require Import Model.Hsl Model.ColorMap Spec.ColorMap.
Import ListNotations.
Open Scope Z_scope.

(* ---- angles ---- *)
Lemma free_none fuel taken : forall a, 0 <= a < 360 -> free fuel taken a = None -> forall i, (i < fuel)%nat -> In ((a + Z.of_nat i) mod 360) taken.
Proof.
  induction fuel as [|f IH]; intros a A H i I; [ lia | ]. cbn [free] in H. destruct (existsb (Z.eqb a) taken) eqn:E; [ | discriminate ].
  apply existsb_exists in E. destruct E as (y & Y & E). apply Z.eqb_eq in E. subst y. destruct i as [|i].
  - rewrite Z.add_0_r, Z.mod_small by lia. exact Y.
  - assert (B : 0 <= (a + 1) mod 360 < 360) by (apply Z.mod_pos_bound; lia). specialize (IH _ B H i ltac:(lia)).
    rewrite Zplus_mod_idemp_l in IH. replace (a + Z.of_nat (S i)) with (a + 1 + Z.of_nat i) by lia. exact IH.
Qed.
Lemma free_some fuel taken : forall a x, 0 <= a < 360 -> free fuel taken a = Some x -> 0 <= x < 360 /\ ~ In x taken.
Proof.
  induction fuel as [|f IH]; intros a x A H; [ discriminate | ]. cbn [free] in H. destruct (existsb (Z.eqb a) taken) eqn:E.
  - apply IH in H; [ exact H | apply Z.mod_pos_bound; lia ].
  - injection H as <-. split; [ exact A | ]. intros I. assert (X : existsb (Z.eqb a) taken = true) by (apply existsb_exists; exists a; split; [ exact I | apply Z.eqb_refl ]). congruence.
Qed.
Lemma free_ok taken a : 0 <= a < 360 -> (length taken < 360)%nat -> exists x, free 360 taken a = Some x.
Proof.
  intros A L. destruct (free 360 taken a) as [x|] eqn:E; [ eauto | ].
  assert (H := free_none _ _ _ A E).
  assert (I : (length (map (fun i => ((a + Z.of_nat i) mod 360)%Z) (seq 0 360)) <= length taken)%nat).
  { apply NoDup_incl_length.
    -
      assert (G : forall l, NoDup l -> (forall i, In i l -> (i < 360)%nat) -> NoDup (map (fun i => ((a + Z.of_nat i) mod 360)%Z) l)).
      { induction 1 as [|i l N D IH]; intros B; cbn [map]; constructor; [ | apply IH; intros; apply B; right; assumption ].
        intros J. apply in_map_iff in J. destruct J as (j & E1 & J). apply N. assert (i = j); [ | congruence ].
        assert (Bi := B i (or_introl eq_refl)). assert (Bj := B j (or_intror J)).
        assert (Q1 := Z.div_mod (a + Z.of_nat i) 360 ltac:(lia)). assert (Q2 := Z.div_mod (a + Z.of_nat j) 360 ltac:(lia)). lia. }
      apply G; [ apply seq_NoDup | intros i I; apply in_seq in I; lia ].
    - intros x X. apply in_map_iff in X. destruct X as (i & <- & I). apply in_seq in I. apply H. lia. }
  rewrite map_length, seq_length in I. lia.
Qed.

Lemma angles_ok step count : forall taken a, 0 <= a < 360 -> (count + length taken <= 360)%nat ->
  exists l, angles count step taken a = Some l /\ length l = count /\ NoDup l /\ forall x, In x l -> 0 <= x < 360 /\ ~ In x taken.
Proof.
  induction count as [|c IH]; intros taken a A L; cbn [angles].
  - exists []. repeat split; try constructor; contradiction.
  - destruct (free_ok taken a A) as (x & E); [ lia | ]. rewrite E. destruct (free_some _ _ _ _ A E) as (X & N).
    destruct (IH (x :: taken) ((x + step) mod 360)) as (l & El & Ll & Nl & Il); [ apply Z.mod_pos_bound; lia | cbn; lia | ].
    rewrite El. exists (x :: l). split; [ reflexivity | ]. split; [ cbn; lia | ]. split.
    + constructor; [ | exact Nl ]. intros I. apply (proj2 (Il x I)). left. reflexivity.
    + intros y [ <- | Y ]; [ tauto | ]. destruct (Il y Y) as (B & M). split; [ exact B | ]. intros I. apply M. right. exact I.
Qed.

(* ---- all colors there are ---- *)
Definition shade (p : Z * Z) : color := getBGRFromHSL (inject_Z (snd p)) 1 (currLight (fst p)).
Definition upto (n : nat) : list Z := map Z.of_nat (seq 0 n).
Lemma in_upto n x : In x (upto n) <-> 0 <= x < Z.of_nat n.
Proof. unfold upto. rewrite in_map_iff. split; [ intros (k & <- & K); apply in_seq in K; lia | intros H; exists (Z.to_nat x); rewrite in_seq; lia ]. Qed.
Definition key (c : color) : Z := let '(b, g, r) := c in Z.max b (Z.max g r) + Z.min b (Z.min g r).
Definition keys : list Z := [255; 128; 383; 191; 319; 213; 298; 223; 287; 230].
Definition same (c e : color) : bool := let '(b, g, r) := c in let '(b', g', r') := e in (b =? b') && (g =? g') && (r =? r').
Fixpoint distinct (l : list color) : bool := match l with [] => true | c :: r => negb (existsb (same c) r) && distinct r end.
Definition bright (c : color) : bool :=
  let '(b, g, r) := c in negb ((b =? g) && (g =? r)) && (0 <=? b) && (b <=? 255) && (0 <=? g) && (g <=? 255) && (0 <=? r) && (r <=? 255).
Definition row (d : Z) : list color := map (fun a => shade (d, a)) (upto 360).

Lemma rows_checked : forallb (fun d => distinct (row d) && forallb (fun c => (key c =? nth (Z.to_nat d) keys 0) && bright c) (row d)) (upto 10) = true.
Proof. vm_cast_no_check (eq_refl true). Qed.

Lemma same_refl c : same c c = true.
Proof. destruct c as [[b g] r]. cbn. rewrite !Z.eqb_refl. reflexivity. Qed.
Lemma distinct_nodup l : distinct l = true -> NoDup l.
Proof.
  induction l as [|c l IH]; intros H; [ constructor | ]. cbn [distinct] in H. apply andb_true_iff in H. destruct H as [A B]. constructor; [ | auto ].
  intros I. apply negb_true_iff in A. assert (X : existsb (same c) l = true) by (apply existsb_exists; exists c; split; [ exact I | apply same_refl ]). congruence.
Qed.
Lemma nodup_map_inj {A B} (f : A -> B) l : NoDup (map f l) -> forall x y, In x l -> In y l -> f x = f y -> x = y.
Proof.
  induction l as [|z l IH]; intros N x y X Y E; [ destruct X | ]. cbn in N. inversion N as [|w m N1 N2]; subst.
  destruct X as [ <- | X ], Y as [ <- | Y ]; auto.
  - destruct N1. rewrite E. apply in_map, Y.
  - destruct N1. rewrite <- E. apply in_map, X.
Qed.
Lemma row_facts d : 0 <= d < 10 -> NoDup (row d) /\ forall a, 0 <= a < 360 -> key (shade (d, a)) = nth (Z.to_nat d) keys 0 /\ bright (shade (d, a)) = true.
Proof.
  intros D. assert (H := proj1 (forallb_forall _ _) rows_checked d (proj2 (in_upto 10 d) D)). apply andb_true_iff in H. destruct H as [A B].
  split; [ apply distinct_nodup, A | ]. intros a H. assert (X := proj1 (forallb_forall _ _) B (shade (d, a))).
  assert (I : In (shade (d, a)) (row d)) by (apply (in_map (fun a => shade (d, a))), in_upto; lia).
  apply X in I. apply andb_true_iff in I. destruct I as [I J]. apply Z.eqb_eq in I. tauto.
Qed.
Lemma shade_inj p q : 0 <= fst p < 10 -> 0 <= fst q < 10 -> 0 <= snd p < 360 -> 0 <= snd q < 360 -> shade p = shade q -> p = q.
Proof.
  destruct p as [d a], q as [e b]. cbn [fst snd]. intros D E A B H.
  destruct (row_facts d D) as (N & F). destruct (row_facts e E) as (_ & G).
  assert (K : nth (Z.to_nat d) keys 0 = nth (Z.to_nat e) keys 0) by (rewrite <- (proj1 (F a A)), <- (proj1 (G b B)), H; reflexivity).
  assert (KD : NoDup keys) by (repeat constructor; cbn; intuition lia).
  assert (DE : d = e).
  { assert (X := proj1 (NoDup_nth keys 0) KD (Z.to_nat d) (Z.to_nat e) ltac:(cbn; lia) ltac:(cbn; lia) K). lia. }
  subst e. f_equal. apply (nodup_map_inj (fun a => shade (d, a)) (upto 360) N); [ apply in_upto; lia | apply in_upto; lia | exact H ].
Qed.

(* ---- divisions ---- *)
Fixpoint reached (todo : nat) (n d idx : Z) : Z :=
  match todo with O => idx | S t => if idx <? n then reached t n (d + 1) (idx + sampleCount n d idx) else idx end.
Lemma reached_checked : forallb (fun n => if 2 <=? n then reached (Z.to_nat (Z.log2_up n)) n 0 0 =? n else true) (upto 720) = true.
Proof. vm_cast_no_check (eq_refl true). Qed.

Lemma sample_bounds n d idx : 0 <= d -> 0 <= idx < n -> n < 720 -> 1 <= sampleCount n d idx <= 359 /\ idx + sampleCount n d idx <= n.
Proof.
  intros D I N. unfold sampleCount. change (360 / 45 - 1) with 7.
  assert (A : n / 2 ^ (d + 1) <= n / 2).
  { rewrite Z.pow_add_r, Z.mul_comm, <- Z.div_div by lia. assert (P : 0 < 2 ^ d) by (apply Z.pow_pos_nonneg; lia).
    apply Z.div_le_upper_bound; [ lia | ]. assert (0 <= n / 2) by (apply Z.div_pos; lia). change (2 ^ 1) with 2. nia. }
  assert (B : n / 2 <= 359) by (apply Z.lt_succ_r; apply Z.div_lt_upper_bound; lia).
  lia.
Qed.

Lemma divisions_ok n rand todo : forall d idx, n < 720 -> 0 <= d -> 0 <= idx -> idx <= n ->
  exists ps, divisions todo n rand d idx = Some (map shade ps) /\ NoDup ps /\ Z.of_nat (length ps) = reached todo n d idx - idx /\
    forall p, In p ps -> d <= fst p < d + Z.of_nat todo /\ 0 <= snd p < 360.
Proof.
  induction todo as [|t IH]; intros d idx N D I L; cbn [divisions reached].
  - exists []. repeat split; try constructor; try (cbn; lia); contradiction.
  - destruct (Z.ltb_spec idx n) as [H|H].
    + destruct (sample_bounds n d idx D ltac:(lia) N) as (K & KL). set (k := sampleCount n d idx) in *.
      destruct (angles_ok (360 / k) (Z.to_nat k) [] ((rand d mod 2 ^ 16) mod 45)) as (l & El & Ll & Nl & Il).
      { assert (0 <= (rand d mod 2 ^ 16) mod 45 < 45) by (apply Z.mod_pos_bound; lia). lia. }
      { cbn. lia. }
      rewrite El. destruct (IH (d + 1) (idx + k)) as (ps & E & Np & Lp & Ip); try lia. rewrite E.
      exists (map (fun a => (d, a)) l ++ ps). split; [ rewrite map_app, map_map; reflexivity | ]. split; [ | split ].
      * assert (G : NoDup (map (fun a => (d, a)) l)).
        { apply FinFun.Injective_map_NoDup; [ | exact Nl ]. intros x y X. congruence. }
        clear - G Np Ip. induction l as [|a l IHl]; cbn; [ exact Np | ]. cbn in G. inversion G as [|u v G1 G2]; subst. constructor; [ | auto ].
        rewrite in_app_iff. intros [J|J]; [ contradiction | ]. apply Ip in J. cbn in J. lia.
      * rewrite app_length, map_length, Nat2Z.inj_add, Lp. lia.
      * intros p P. apply in_app_iff in P. destruct P as [P|P].
        -- apply in_map_iff in P. destruct P as (a & <- & P). apply Il in P. cbn [fst snd]. lia.
        -- apply Ip in P. lia.
    + exists []. repeat split; try constructor; try (cbn; lia); contradiction.
Qed.

Lemma palette_ok n rand : 2 <= n < 720 -> exists l, palette n rand = Some l /\ Z.of_nat (length l) = n /\ NoDup l /\ forall c, In c l -> bright c = true.
Proof.
  intros N. unfold palette. destruct (divisions_ok n rand (Z.to_nat (Z.log2_up n)) 0 0) as (ps & E & Np & Lp & Ip); try lia. rewrite E.
  assert (R : reached (Z.to_nat (Z.log2_up n)) n 0 0 = n).
  { assert (X := proj1 (forallb_forall _ _) reached_checked n (proj2 (in_upto 720 n) ltac:(lia))). cbv beta in X.
    destruct (Z.leb_spec 2 n); [ | lia ]. apply Z.eqb_eq in X. exact X. }
  rewrite R in Lp. assert (T : Z.log2_up n <= 10) by (change 10 with (Z.log2_up 720); apply Z.log2_up_le_mono; lia).
  assert (B : forall p, In p ps -> 0 <= fst p < 10 /\ 0 <= snd p < 360).
  { intros p P. apply Ip in P. assert (0 <= Z.log2_up n) by apply Z.log2_up_nonneg. lia. }
  rewrite map_length. replace (Z.to_nat n - length ps)%nat with 0%nat by lia. cbn [repeat]. rewrite app_nil_r.
  exists (map shade ps). split; [ reflexivity | ]. split; [ rewrite map_length; lia | ]. split.
  - clear - Np B. induction Np as [|p ps N1 N2 IH]; cbn; constructor; [ | apply IH; intros; apply B; right; assumption ].
    intros I. apply in_map_iff in I. destruct I as (q & E & Q). apply N1. assert (Bp := B p (or_introl eq_refl)). assert (Bq := B q (or_intror Q)).
    assert (p = q) by (apply shade_inj; try tauto; congruence). congruence.
  - intros c C. apply in_map_iff in C. destruct C as ([d a] & <- & P). apply B in P. cbn [fst snd] in P. apply (proj2 (row_facts d (proj1 P))), P.
Qed.

(* ---- unique values ---- *)
Lemma set_insert_in x l y : In y (set_insert x l) <-> y = x \/ In y l.
Proof.
  induction l as [|z l IH]; cbn; [ intuition congruence | ]. destruct (Z.ltb_spec x z); [ cbn; intuition congruence | ].
  destruct (Z.eqb_spec x z); [ subst; cbn; intuition congruence | ]. cbn. rewrite IH. intuition congruence.
Qed.
Lemma set_insert_sorted x l : StronglySorted Z.lt l -> StronglySorted Z.lt (set_insert x l).
Proof.
  induction 1 as [|z l S IH F]; cbn; [ repeat constructor | ]. destruct (Z.ltb_spec x z).
  - constructor; [ constructor; assumption | ]. constructor; [ assumption | ]. eapply Forall_impl; [ | exact F ]. cbn. lia.
  - destruct (Z.eqb_spec x z); [ constructor; assumption | ]. constructor; [ exact IH | ]. rewrite Forall_forall in *. intros y Y.
    apply set_insert_in in Y. destruct Y as [ -> | Y ]; [ lia | auto ].
Qed.
Lemma unique_facts m : StronglySorted Z.lt (unique m) /\ forall x, In x (unique m) <-> In x m.
Proof.
  unfold unique. assert (G : forall m s, StronglySorted Z.lt s -> StronglySorted Z.lt (fold_left (fun s x => set_insert x s) m s) /\
    forall x, In x (fold_left (fun s x => set_insert x s) m s) <-> In x m \/ In x s).
  { induction m0 as [|y m0 IH]; intros s S; cbn [fold_left].
    - split; [ exact S | ]. cbn. tauto.
    - destruct (IH (set_insert y s) (set_insert_sorted y s S)) as (A & B). split; [ exact A | ]. intros x. rewrite B, set_insert_in. cbn. intuition congruence. }
  destruct (G m [] (SSorted_nil _)) as (A & B). split; [ exact A | ]. intros x. rewrite B. cbn. tauto.
Qed.
Lemma sorted_nodup l : StronglySorted Z.lt l -> NoDup l.
Proof. induction 1 as [|x l S IH F]; constructor; [ | exact IH ]. intros I. rewrite Forall_forall in F. apply F in I. lia. Qed.
Lemma unique_count k m : (length (unique m) <= k)%nat <-> values_at_most k m.
Proof.
  destruct (unique_facts m) as (S & I). split.
  - intros L. exists (unique m). split; [ exact L | ]. intros x. apply I.
  - intros (l & L & C). assert (length (unique m) <= length l)%nat; [ | lia ]. apply NoDup_incl_length; [ apply sorted_nodup, S | ].
    intros x X. apply C, I, X.
Qed.

(* ---- the map ---- *)
Lemma lookup_in (u : list Z) : forall cs v, length u = length cs -> NoDup u -> In v u -> In (v, lookup (combine u cs) v) (combine u cs).
Proof.
  induction u as [|k u IH]; intros [|c cs] v L N I; cbn in L; try lia; try destruct I as [ <- | I ]; try contradiction; cbn [combine lookup].
  - rewrite Z.eqb_refl. left. reflexivity.
  - inversion N; subst. destruct (Z.eqb_spec k v) as [ -> | E ]; [ left; reflexivity | ]. right. apply IH; auto.
Qed.
Lemma combine_inj (u : list Z) : forall (cs : list color) v w c, NoDup cs -> In (v, c) (combine u cs) -> In (w, c) (combine u cs) -> v = w.
Proof.
  induction u as [|k u IH]; intros [|c' cs] v w c N V W; cbn in V, W; try contradiction. inversion N as [|x l N1 N2]; subst.
  destruct V as [V|V], W as [W|W]; try congruence.
  - injection V as <- <-. apply in_combine_r in W. contradiction.
  - injection W as <- <-. apply in_combine_r in V. contradiction.
  - eapply IH; eassumption.
Qed.
Lemma combine_keys (u : list Z) : forall (cs : list color), length u = length cs -> map fst (combine u cs) = u.
Proof. induction u as [|k u IH]; intros [|c cs] L; cbn in *; try lia; [ reflexivity | ]. rewrite IH by lia. reflexivity. Qed.

Lemma bright_ok c : bright c = true -> colorful c.
Proof.
  destruct c as [[b g] r]. unfold bright, colorful. rewrite !andb_true_iff, negb_true_iff, !Z.leb_le, andb_false_iff, !Z.eqb_neq. lia.
Qed.

Lemma unfolded m rand shuffle : m <> [] -> getUniqueColorMap m rand shuffle =
  if Z.of_nat (length (unique m)) <=? 1 then Painted (repeat (255, 255, 255) (length m)) None
  else if 720 <=? Z.of_nat (length (unique m)) then Refused
  else match palette (Z.of_nat (length (unique m))) rand with
       | None => Endless
       | Some v => Painted (map (lookup (combine (unique m) (shuffle v))) m) (Some (combine (unique m) (shuffle v)))
       end.
Proof. destruct m; [ congruence | reflexivity ]. Qed.

Lemma distinct_claim m rand shuffle : (forall l, Permutation l (shuffle l)) -> ~ values_at_most 1 m -> values_at_most 719 m ->
  exists image t, getUniqueColorMap m rand shuffle = Painted image (Some t) /\ tells_apart m image /\
    (forall v, In v (map fst t) <-> In v m) /\ NoDup (map fst t) /\ (forall v c, In (v, c) t -> colorful c) /\
    (forall i, (i < length m)%nat -> In (nth i m 0, nth i image (0, 0, 0)) t).
Proof.
  intros Sh One Many. rewrite <- unique_count in One, Many. destruct (unique_facts m) as (US & UI). assert (UN := sorted_nodup _ US).
  rewrite unfolded by (intros ->; cbn in One; lia).
  destruct (Z.leb_spec (Z.of_nat (length (unique m))) 1); [ lia | ]. destruct (Z.leb_spec 720 (Z.of_nat (length (unique m)))); [ lia | ].
  destruct (palette_ok (Z.of_nat (length (unique m))) rand) as (l & E & L & N & B); [ lia | ]. rewrite E.
  assert (P := Sh l). set (cs := shuffle l) in *. assert (CL : length (unique m) = length cs) by (assert (PL := Permutation_length P); unfold color, cs in *; lia).
  assert (CN : NoDup cs) by (apply (Permutation_NoDup P), N).
  set (t := combine (unique m) cs).
  assert (LI : forall i, (i < length m)%nat -> In (nth i m 0, nth i (map (lookup t) m) (0, 0, 0)) t).
  { intros i I. rewrite (nth_indep _ _ (lookup t 0)) by (rewrite map_length; exact I). rewrite map_nth. apply lookup_in; [ exact CL | exact UN | ]. apply UI, nth_In, I. }
  exists (map (lookup t) m), t. split; [ reflexivity | ]. split; [ split | split; [ | split; [ | split ] ] ].
  - apply map_length.
  - intros i j I J. split.
    + intros H1. assert (X := LI i I). assert (Y := LI j J). unfold rgb, color in *. rewrite <- H1 in Y. exact (combine_inj _ _ _ _ _ CN X Y).
    + assert (V : forall k, (k < length m)%nat -> nth k (map (lookup t) m) (0, 0, 0) = lookup t (nth k m 0)).
      { intros k K. rewrite (nth_indep _ _ (lookup t 0)) by (rewrite map_length; exact K). apply map_nth. }
      intros H1. unfold rgb, color in *. rewrite (V i I), (V j J), H1. reflexivity.
  - intros v. unfold t. rewrite combine_keys by exact CL. apply UI.
  - unfold t. rewrite combine_keys by exact CL. exact UN.
  - intros v c I. apply in_combine_r in I. apply (Permutation_in _ (Permutation_sym P)) in I. apply bright_ok, B, I.
  - exact LI.
Qed.

Lemma refused_claim m rand shuffle : getUniqueColorMap m rand shuffle = Refused <-> ~ values_at_most 719 m.
Proof.
  rewrite <- unique_count. destruct (list_eq_dec Z.eq_dec m []) as [ -> | NE ]; [ cbn; split; [ discriminate | lia ] | ]. rewrite unfolded by exact NE.
  destruct (Z.leb_spec (Z.of_nat (length (unique m))) 1); [ split; [ discriminate | lia ] | ].
  destruct (Z.leb_spec 720 (Z.of_nat (length (unique m)))); [ split; [ lia | reflexivity ] | ].
  destruct (palette (Z.of_nat (length (unique m))) rand); split; try discriminate; lia.
Qed.
Lemma single_claim m rand shuffle : values_at_most 1 m -> getUniqueColorMap m rand shuffle = Painted (repeat (255, 255, 255) (length m)) None.
Proof.
  rewrite <- unique_count. intros H. destruct (list_eq_dec Z.eq_dec m []) as [ -> | NE ]; [ reflexivity | ]. rewrite unfolded by exact NE.
  destruct (Z.leb_spec (Z.of_nat (length (unique m))) 1); [ reflexivity | lia ].
Qed.
Lemma ends_claim m rand shuffle : getUniqueColorMap m rand shuffle <> Endless.
Proof.
  destruct (list_eq_dec Z.eq_dec m []) as [ -> | NE ]; [ discriminate | ]. rewrite unfolded by exact NE.
  destruct (Z.leb_spec (Z.of_nat (length (unique m))) 1); [ discriminate | ].
  destruct (Z.leb_spec 720 (Z.of_nat (length (unique m)))); [ discriminate | ].
  destruct (palette_ok (Z.of_nat (length (unique m))) rand) as (l & E & _); [ lia | ]. rewrite E. discriminate.
Qed.
