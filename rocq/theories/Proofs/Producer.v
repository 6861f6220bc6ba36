From Coq Require Import ZArith QArith Qround Qabs List Bool Lia Lqa.
From Verif Require Import Model.Producer Spec.Producer.
Import ListNotations.
Open Scope Z_scope.

Lemma opaque_usual d a : opaque d = Some a -> usual_depth d /\ a = full_alpha d.
Proof.
  unfold opaque, usual_depth, full_alpha. destruct (d =? 0) eqn:A, (d =? 2) eqn:B, (d =? 5) eqn:C; intro E; try discriminate; inversion E; lia.
Qed.
Lemma usual_opaque d : usual_depth d -> opaque d = Some (full_alpha d).
Proof. intros [H | [H | H]]; subst; reflexivity. Qed.
Lemma size_match (h w h' w' : Z) : (h =? h') && (w =? w') = true <-> h = h' /\ w = w'.
Proof. rewrite andb_true_iff, !Z.eqb_eq. tauto. Qed.

(* scaled coordinates *)
Lemma scale_bound y n m : 0 < n -> 0 < m -> 0 <= y < m -> 0 <= y * n / m < n /\ y * n / m * m <= y * n < (y * n / m + 1) * m.
Proof.
  intros N M Y. pose proof (Z.div_mod (y * n) m ltac:(lia)) as D. pose proof (Z.mod_pos_bound (y * n) m M) as B.
  assert (0 <= y * n / m) by (apply Z.div_pos; nia). assert (y * n / m < n) by (apply Z.div_lt_upper_bound; nia). nia.
Qed.

Lemma resize_shows grey i f c o h w (N : well_formed f) :
  rows c = rows f -> cols c = cols f -> isize i = Some (h, w) -> idepth i = depth c -> ichans i = chans c ->
  (forall y x, px c y x = if ichans i =? chans f then px f y x else if ichans i =? 4 then px f y x ++ [full_alpha (depth f)] else [grey (px f y x)]) ->
  resize c h w = Some o -> shows grey i f o.
Proof.
  intros R C I D K P. unfold resize. destruct (_ && _) eqn:HW; [| discriminate]. apply andb_true_iff in HW. destruct HW as [H W]. apply Z.ltb_lt in H, W.
  intro E. inversion E; subst o; clear E. unfold shows. cbn [rows cols depth chans px].
  split; [ exact I |]. split; [ exact D |]. split; [ exact K |]. intros y x Y X.
  destruct N as (N1 & N2 & _).
  destruct (scale_bound y (rows c) h) as [A1 A2]; try lia. destruct (scale_bound x (cols c) w) as [B1 B2]; try lia.
  exists (y * rows c / h), (x * cols c / w). rewrite <- R, <- C.
  repeat split; try lia. rewrite !Z.min_l by lia. apply P.
Qed.
Lemma same_shows grey i f c (N : well_formed f) :
  rows c = rows f -> cols c = cols f -> isize i = Some (rows c, cols c) -> idepth i = depth c -> ichans i = chans c ->
  (forall y x, px c y x = if ichans i =? chans f then px f y x else if ichans i =? 4 then px f y x ++ [full_alpha (depth f)] else [grey (px f y x)]) ->
  shows grey i f c.
Proof.
  intros R C I D K P. unfold shows. split; [ exact I |]. split; [ exact D |]. split; [ exact K |]. intros y x Y X.
  exists y, x. rewrite <- R, <- C. repeat split; try nia. apply P.
Qed.

Lemma fits_true i im : fits i im = true <-> idepth i = depth im /\ ichans i = chans im /\ isize i = Some (rows im, cols im).
Proof.
  unfold fits. rewrite !andb_true_iff, !Z.eqb_eq. destruct (isize i) as [[h w]|].
  - rewrite size_match. split; [ intros [[A B] [C D]]; subst; auto | intros (A & B & E); inversion E; auto ].
  - split; [ intros [_ E]; discriminate | intros (_ & _ & E); discriminate ].
Qed.
Lemma resize_keeps c h w o : resize c h w = Some o -> depth o = depth c /\ chans o = chans c /\ rows o = h /\ cols o = w /\ 0 < h /\ 0 < w.
Proof.
  unfold resize. destruct (_ && _) eqn:HW; [| discriminate]. apply andb_true_iff in HW. destruct HW as [H W]. apply Z.ltb_lt in H, W. intro E. inversion E. subst. cbn. auto 8.
Qed.
Lemma resize_some c h w : 0 < h -> 0 < w -> exists o, resize c h w = Some o.
Proof. intros H W. unfold resize. apply Z.ltb_lt in H, W. rewrite H, W. eexists. reflexivity. Qed.

(* the converted image *)
Definition converted grey (i : info) (im : image) : option image :=
  if (idepth i =? depth im) && negb (ichans i =? chans im) then
    if (ichans i =? 4) && (chans im =? 3) then to_bgra im
    else if (ichans i =? 1) && (chans im =? 3) then to_grey grey im
    else Some im
  else Some im.
Lemma converted_ok grey i f : convertible i f ->
  exists c, converted grey i f = Some c /\ rows c = rows f /\ cols c = cols f /\ depth c = depth f /\ chans c = ichans i /\
    forall y x, px c y x = if ichans i =? chans f then px f y x else if ichans i =? 4 then px f y x ++ [full_alpha (depth f)] else [grey (px f y x)].
Proof.
  intros [D K]. unfold converted. rewrite D, Z.eqb_refl. cbn [andb].
  destruct (Z.eqb_spec (ichans i) (chans f)) as [E|E]; cbn [negb].
  - exists f. repeat split; auto.
  - destruct K as [K | (K3 & K & U)]; [ contradiction |]. rewrite K3. cbn [Z.eqb Pos.eqb]. rewrite !andb_true_r.
    destruct K as [K | K]; rewrite K; cbn [Z.eqb Pos.eqb].
    + unfold to_bgra. rewrite (usual_opaque _ U). eexists. split; [ reflexivity |]. cbn. repeat split; auto.
    + unfold to_grey. rewrite (usual_opaque _ U). eexists. split; [ reflexivity |]. cbn. repeat split; auto.
Qed.
Lemma converted_same grey i f c : converted grey i f = Some c -> idepth i = depth c -> ichans i = chans c -> convertible i f.
Proof.
  unfold converted, convertible. destruct (Z.eqb_spec (idepth i) (depth f)) as [D|D]; cbn [andb].
  - destruct (Z.eqb_spec (ichans i) (chans f)) as [E|E]; cbn [negb]; [ auto |].
    destruct (Z.eqb_spec (ichans i) 4) as [A|A], (Z.eqb_spec (chans f) 3) as [B|B]; cbn [andb].
    + unfold to_bgra. destruct (opaque (depth f)) eqn:O; [| discriminate]. intros _ _ _. apply opaque_usual in O. destruct O. auto 8.
    + rewrite andb_false_r. intro H. inversion H; subst. contradiction.
    + rewrite andb_true_r. destruct (Z.eqb_spec (ichans i) 1) as [A1|A1].
      * unfold to_grey. destruct (opaque (depth f)) eqn:O; [| discriminate]. intros _ _ _. apply opaque_usual in O. destruct O. auto 8.
      * intro H. inversion H; subst. contradiction.
    + rewrite andb_false_r. intro H. inversion H; subst. contradiction.
  - intro H. inversion H; subst. contradiction.
Qed.

Lemma redirect_shows grey i f h w : well_formed f -> isize i = Some (h, w) -> 0 < h -> 0 < w -> convertible i f ->
  exists o, redirect grey true i (Some f) = Packet (Some o) /\ shows grey i f o.
Proof.
  intros N I H W C. destruct (converted_ok grey i f C) as (c & E & R1 & R2 & R3 & R4 & P). destruct C as [D _].
  cbn [redirect]. unfold transform. fold (converted grey i f). rewrite E, I.
  destruct ((h =? rows c) && (w =? cols c)) eqn:S.
  - apply size_match in S. destruct S as [-> ->].
    replace (fits i c) with true; [| symmetry; apply fits_true; repeat split; auto; congruence ].
    exists c. split; [ reflexivity |]. apply same_shows; auto; congruence.
  - destruct (resize_some c h w H W) as [o O]. rewrite O. pose proof (resize_keeps _ _ _ _ O) as (K1 & K2 & K3 & K4 & _).
    replace (fits i o) with true; [| symmetry; apply fits_true; repeat split; congruence ].
    exists o. split; [ reflexivity |]. apply (resize_shows grey i f c o h w); auto; congruence.
Qed.
Lemma redirect_packet grey i f o : redirect grey true i (Some f) = Packet o -> convertible i f.
Proof.
  cbn [redirect]. unfold transform. fold (converted grey i f). destruct (converted grey i f) as [c|] eqn:E; [| discriminate ].
  destruct (isize i) as [[h w]|] eqn:I; [| discriminate ].
  destruct ((h =? rows c) && (w =? cols c)) eqn:S.
  - destruct (fits i c) eqn:F; [| discriminate ]. intros _. apply fits_true in F. destruct F as (A & B & _). eapply converted_same; eauto.
  - destruct (resize c h w) as [t|] eqn:T; [| discriminate ]. destruct (fits i t) eqn:F; [| discriminate ]. intros _. apply fits_true in F. destruct F as (A & B & _).
    apply resize_keeps in T. destruct T as (T1 & T2 & _). eapply converted_same; eauto; congruence.
Qed.
(* every image is either shown or refused, and nothing else is ever given for it *)
Lemma redirect_cases grey i f h w : well_formed f -> isize i = Some (h, w) -> 0 < h -> 0 < w ->
  (convertible i f -> exists o, redirect grey true i (Some f) = Packet (Some o) /\ shows grey i f o) /\
  (~ convertible i f -> redirect grey true i (Some f) = Fails).
Proof.
  intros N I H W. split; [ apply (redirect_shows grey i f h w); auto |].
  intro C. destruct (redirect grey true i (Some f)) as [o|] eqn:E; [| reflexivity ]. exfalso. apply C. eapply redirect_packet. exact E.
Qed.

(* videos *)
Lemma read_frame r p f : 0 <= p -> nth_error (frames r) (Z.to_nat p) = Some f -> read r p = (Some f, p + 1).
Proof. intros P E. unfold read. apply Z.leb_le in P. rewrite P, E. reflexivity. Qed.
Lemma nth_error_some {A} (l : list A) p : 0 <= p < Z.of_nat (length l) -> exists f, nth_error l (Z.to_nat p) = Some f.
Proof. intro P. destruct (nth_error l (Z.to_nat p)) eqn:E; [ eauto |]. apply nth_error_None in E. lia. Qed.
Lemma nth_error_range {A} (l : list A) p f : nth_error l (Z.to_nat p) = Some f -> 0 <= p -> p < Z.of_nat (length l).
Proof. intros E P. assert (nth_error l (Z.to_nat p) <> None) as L by congruence. apply nth_error_Some in L. lia. Qed.

Definition size_t (i : Z) : Prop := 0 <= i < 2 ^ 64.
Lemma u64_next i : is_index i -> u64 (i + 1) = i + 1.
Proof. unfold is_index, size_max, u64. intro H. apply Z.mod_small. lia. Qed.

(* the cursor: while the next expected index is at most the number of frames, it is the position of the reader *)
Definition tracked (r : reader) (c : cursor) : Prop := 0 <= expected c /\ (expected c <= Z.of_nat (length (frames r)) -> pos c = expected c).
Lemma raw_tracked r c i : is_index i -> tracked r c -> tracked r (snd (raw_input (Video r) c i)) /\
  (forall f, nth_error (frames r) (Z.to_nat i) = Some f -> fst (raw_input (Video r) c i) = Some f).
Proof.
  intros I [T0 T]. cbn [raw_input].
  set (c' := if negb (expected c =? i) then _ else _).
  assert (C : expected c' = i + 1 /\ (i < Z.of_nat (length (frames r)) -> pos c' = i)).
  { unfold c'. destruct (Z.eqb_spec (expected c) i) as [E|E]; cbn [negb expected pos].
    - rewrite E, u64_next by auto. split; [ reflexivity |]. intro L. rewrite T; lia.
    - rewrite u64_next by auto. split; [ reflexivity |]. intro L. unfold set_pos. unfold is_index in I.
      replace ((0 <=? i) && (i <? _)) with true; auto. symmetry. apply andb_true_iff. rewrite Z.leb_le, Z.ltb_lt. lia. }
  clearbody c'. destruct C as [C1 C2]. unfold is_index in I.
  destruct (Z.ltb_spec i (Z.of_nat (length (frames r)))) as [L|L].
  - specialize (C2 L). destruct (nth_error_some (frames r) i ltac:(lia)) as [f F].
    rewrite C2, (read_frame r i f) by (auto; lia). cbn [fst snd]. split.
    + unfold tracked. cbn [expected pos]. lia.
    + intros g G. congruence.
  - destruct (read r (pos c')) as [g p]. cbn [fst snd]. split.
    + unfold tracked. cbn [expected pos]. lia.
    + intros f F. apply nth_error_range in F; lia.
Qed.

(* what a loader holds for an index is what it would load again *)
Definition loaded (grey : list Z -> Z) (p : producer) (s : state) (r : reader) : Prop :=
  tracked r (cur s) /\ forall f, nth_error (frames r) (Z.to_nat (last s)) = Some f -> 0 <= last s < size_max -> redirect grey true (info_at p (last s)) (Some f) = Packet (held s).
Lemma get_loaded grey p s r i : src p = Video r -> is_index i -> loaded grey p s r -> loaded grey p (fst (get_input grey p s i)) r /\
  forall f, nth_error (frames r) (Z.to_nat i) = Some f -> snd (get_input grey p s i) = redirect grey true (info_at p i) (Some f).
Proof.
  intros V I [T L]. unfold get_input. destruct (Z.eqb_spec i (last s)) as [E|E].
  - cbn [fst snd]. split; [ split; auto |]. intros f F. rewrite E in *. symmetry. apply L; auto.
  - rewrite V. destruct (raw_tracked r (cur s) i I T) as [T' R]. destruct (raw_input (Video r) (cur s) i) as [raw c] eqn:W. cbn [fst snd] in *.
    destruct (redirect grey true (info_at p i) raw) as [o|] eqn:D; cbn [fst snd].
    + split; [ split; cbn [cur last held]; auto |]; intros f F; [ intros _ |]; rewrite (R f F) in D; congruence.
    + split; [ split; cbn [cur last held]; auto |]. intros f F. rewrite (R f F) in D. congruence.
Qed.
Lemma gets_loaded grey p r is : forall s, src p = Video r -> Forall is_index is -> loaded grey p s r -> loaded grey p (gets grey p s is) r.
Proof.
  induction is as [|i is IH]; intros s V F L; [ exact L |]. inversion F; subst. cbn [gets]. apply IH; auto. apply get_loaded; auto.
Qed.

Lemma read_some r p f : fst (read r p) = Some f -> 0 <= p < Z.of_nat (length (frames r)) /\ nth_error (frames r) (Z.to_nat p) = Some f.
Proof.
  unfold read. destruct (Z.leb_spec 0 p) as [P|P]; [| discriminate ]. destruct (nth_error (frames r) (Z.to_nat p)) as [g|] eqn:G; [| discriminate ].
  cbn [fst]. intro E. split; [ split; auto; eapply nth_error_range; eauto | congruence ].
Qed.
Lemma first_frame r f : fst (read r (set_pos r 0)) = Some f -> set_pos r 0 = 0 /\ nth_error (frames r) 0 = Some f.
Proof.
  intro E. destruct (read_some _ _ _ E) as [L _].
  assert (P : set_pos r 0 = 0). { unfold set_pos. replace ((0 <=? 0) && (0 <? Z.of_nat (length (frames r)))) with true; [ reflexivity |]. symmetry. apply andb_true_iff. split; [ reflexivity | apply Z.ltb_lt; lia ]. }
  rewrite P in E. apply read_some in E. destruct E as [_ E]. auto.
Qed.
(* a new loader *)
Definition fresh (s : state) : Prop := last s = size_max /\ held s = None /\ cur s = Cursor 0 0.
Lemma parse_video_new scale aligned d p s : parse_video scale aligned d = Some (p, s) ->
  0 < count p /\ fresh s /\ exists f, info_of scale aligned f = Some (input_info p) /\
    match src p with Video r => nth_error (frames r) 0 = Some f | Files fs => nth_error fs 0 = Some (Some f) end.
Proof.
  unfold parse_video. destruct (match d with Movie _ _ => _ | Directory _ => _ end) as [[[sr n] [first|]]|] eqn:E; try discriminate.
  destruct (info_of scale aligned first) as [i|] eqn:I; [| discriminate ]. destruct (Z.ltb_spec 0 n) as [P|P]; [| discriminate ].
  intro H. apply (f_equal (fun o => match o with Some v => v | None => (p, s) end)) in H. cbv beta iota in H. 
  assert (H1 := f_equal fst H). assert (H2 := f_equal snd H). cbn [fst snd] in H1, H2. subst p s. unfold fresh. cbn [count last held cur src input_info].
  assert (Q : match sr with Video r => fst (read r (set_pos r 0)) = Some first | Files fs => nth_error fs 0 = Some (Some first) end).
  { destruct d as [r0 n0 | [|f0 [|f1 fs]]]; try discriminate.
    - inversion E; subst. congruence.
    - destruct (as_video f0) as [[r0 n0]|]; [| discriminate ]. inversion E; subst. congruence.
    - inversion E; subst. cbn. congruence. }
  split; [ exact P |]. split.
  - split; [ reflexivity |]. split; [ reflexivity |]. destruct sr as [r|fs]; [| reflexivity ]. apply first_frame in Q. destruct Q as [-> _]. reflexivity.
  - exists first. split; [ exact I |]. destruct sr as [r|fs]; [| exact Q ]. apply first_frame in Q. tauto.
Qed.
Lemma fresh_loaded grey p s r : fresh s -> loaded grey p s r.
Proof.
  intros (L & H & C). split.
  - rewrite C. split; cbn; lia.
  - rewrite L. lia.
Qed.

Lemma video_frame grey scale aligned d p s r is i f : parse_video scale aligned d = Some (p, s) -> src p = Video r -> Forall is_index is -> is_index i ->
  nth_error (frames r) (Z.to_nat i) = Some f -> snd (get_input grey p (gets grey p s is) i) = redirect grey true (info_at p i) (Some f).
Proof.
  intros E V F I N. apply parse_video_new in E. destruct E as (_ & Fr & _). apply (get_loaded grey p _ r i); auto. apply gets_loaded; auto. apply fresh_loaded; auto.
Qed.

(* files *)
Lemma raw_file fs c i : 0 <= i -> raw_input (Files fs) c i = (file_at fs i, c).
Proof.
  intro P. cbn [raw_input]. unfold file_at. destruct (Z.ltb_spec i (Z.of_nat (length fs))) as [L|L].
  - destruct (nth_error fs (Z.to_nat i)) as [[f|]|]; reflexivity.
  - replace (nth_error fs (Z.to_nat i)) with (@None (option image)); [ reflexivity |]. symmetry. apply nth_error_None. lia.
Qed.
Lemma files_step grey p fs s i : src p = Files fs -> is_index i ->
  (is_index (last s) -> redirect grey true (info_at p (last s)) (file_at fs (last s)) = Packet (held s)) ->
  let t := get_input grey p s i in
  (is_index (last (fst t)) -> redirect grey true (info_at p (last (fst t))) (file_at fs (last (fst t))) = Packet (held (fst t))) /\ snd t = redirect grey true (info_at p i) (file_at fs i).
Proof.
  intros V I L. unfold get_input. destruct (Z.eqb_spec i (last s)) as [E|E]; cbv zeta.
  - cbn [fst snd]. subst i. split; auto. symmetry. auto.
  - rewrite V, raw_file by (destruct I; auto). destruct (redirect grey true (info_at p i) (file_at fs i)) as [o|] eqn:D; cbn [fst snd last held]; auto.
Qed.
Lemma files_packet grey scale aligned d p s fs is i : parse_video scale aligned d = Some (p, s) -> src p = Files fs -> Forall is_index is -> is_index i ->
  snd (get_input grey p (gets grey p s is) i) = redirect grey true (info_at p i) (file_at fs i).
Proof.
  intros E V F I. apply parse_video_new in E. destruct E as (_ & (Fr & _) & _).
  assert (L : is_index (last s) -> redirect grey true (info_at p (last s)) (file_at fs (last s)) = Packet (held s)) by (rewrite Fr; unfold is_index; lia).
  clear Fr. revert s L. induction F as [|j is J F IH]; intros s L; cbn [gets].
  - apply (files_step grey p fs s i V I L).
  - apply IH. apply (files_step grey p fs s j V J L).
Qed.

(* behind the last frame *)
Definition off (r : reader) (c : cursor) : Prop :=
  0 <= expected c /\ (expected c <= Z.of_nat (length (frames r)) -> pos c = expected c) /\ (Z.of_nat (length (frames r)) < expected c -> ~ 0 <= pos c < Z.of_nat (length (frames r))).
Lemma read_none r p : ~ 0 <= p < Z.of_nat (length (frames r)) -> read r p = (None, p).
Proof.
  intro P. unfold read. destruct (Z.leb_spec 0 p); [| reflexivity ]. replace (nth_error (frames r) (Z.to_nat p)) with (@None image); [ reflexivity |]. symmetry. apply nth_error_None. lia.
Qed.
Lemma raw_off r c i : stays_out r -> is_index i -> off r c -> off r (snd (raw_input (Video r) c i)) /\ (Z.of_nat (length (frames r)) <= i -> fst (raw_input (Video r) c i) = None).
Proof.
  intros ST I (T0 & T & U). cbn [raw_input]. set (n := Z.of_nat (length (frames r))) in *.
  set (c' := if negb (expected c =? i) then _ else _).
  assert (C : expected c' = i + 1 /\ (i < n -> pos c' = i) /\ (n <= i -> ~ 0 <= pos c' < n)).
  { unfold c'. destruct (Z.eqb_spec (expected c) i) as [E|E]; cbn [negb expected pos]; rewrite ?E, u64_next by auto; unfold is_index in I.
    - split; [ reflexivity |]. split; intro L; [ rewrite T; lia |]. destruct (Z.eq_dec i n); [ rewrite T; lia | apply U; lia ].
    - split; [ reflexivity |]. unfold set_pos. fold n. split; intro L.
      + replace ((0 <=? i) && (i <? n)) with true; auto. symmetry. apply andb_true_iff. rewrite Z.leb_le, Z.ltb_lt. lia.
      + replace ((0 <=? i) && (i <? n)) with false; [ apply ST; unfold n in *; lia |]. symmetry. apply andb_false_iff. right. apply Z.ltb_ge. lia. }
  clearbody c'. destruct C as (C1 & C2 & C3). unfold is_index in I.
  destruct (Z.ltb_spec i n) as [L|L].
  - specialize (C2 L). destruct (nth_error_some (frames r) i ltac:(unfold n in *; lia)) as [f F].
    rewrite C2, (read_frame r i f) by (auto; lia). cbn [fst snd]. unfold off. cbn [expected pos]. fold n. lia.
  - specialize (C3 L). rewrite read_none by exact C3. cbn [fst snd]. split; [| auto ]. unfold off. cbn [expected pos]. fold n. lia.
Qed.
Definition settled (p : producer) (s : state) (r : reader) : Prop := off r (cur s) /\ (Z.of_nat (length (frames r)) <= last s -> held s = None).
Lemma get_settled grey p s r i : src p = Video r -> count p = Z.of_nat (length (frames r)) -> stays_out r -> is_index i -> settled p s r ->
  settled p (fst (get_input grey p s i)) r /\ (count p <= i -> snd (get_input grey p s i) = Packet None).
Proof.
  intros V N ST I [T L]. unfold get_input. destruct (Z.eqb_spec i (last s)) as [E|E].
  - cbn [fst snd]. split; [ split; auto |]. intro P. rewrite L; [ reflexivity | lia ].
  - rewrite V. destruct (raw_off r (cur s) i ST I T) as [T' R]. destruct (raw_input (Video r) (cur s) i) as [raw c] eqn:W. cbn [fst snd] in *.
    destruct (Z.leb_spec (count p) i) as [P|P].
    + rewrite R by lia. unfold info_at. apply Z.leb_le in P. rewrite P. cbn. split; [ split; auto | auto ].
    + destruct (redirect grey true (info_at p i) raw) as [o|] eqn:D; cbn [fst snd]; (split; [ split; cbn [cur last held]; auto; lia | lia ]).
Qed.
Lemma past_end grey scale aligned d p s r is i : parse_video scale aligned d = Some (p, s) -> src p = Video r -> count p = Z.of_nat (length (frames r)) -> stays_out r ->
  Forall is_index is -> is_index i -> count p <= i -> snd (get_input grey p (gets grey p s is) i) = Packet None.
Proof.
  intros E V N ST F I P. apply parse_video_new in E. destruct E as (_ & (F1 & F2 & F3) & _).
  assert (L : settled p s r). { split; [ rewrite F3; unfold off; cbn; lia | auto ]. }
  clear F1 F2 F3. revert s L. induction F as [|j is J F IH]; intros s L; cbn [gets].
  - apply (get_settled grey p s r i); auto.
  - apply IH. apply (get_settled grey p s r j); auto.
Qed.

(* the information on packets *)
Lemma info_of_some scale aligned f i : info_of scale aligned f = Some i -> exists h w, isize i = Some (h, w) /\ 0 < h /\ 0 < w /\ h = scaled scale (rows f) /\ w = scaled scale (cols f) /\
  idepth i = depth f /\ ichans i = if (chans f =? 3) && aligned then 4 else chans f.
Proof.
  unfold info_of. cbv zeta. destruct (_ && _) eqn:B; [| discriminate ]. apply andb_true_iff in B. destruct B as [B1 B2]. apply Z.ltb_lt in B1, B2.
  intro E. apply (f_equal (fun o => match o with Some v => v | None => i end)) in E. subst i. cbn [isize idepth ichans]. exists (scaled scale (rows f)), (scaled scale (cols f)). auto 9.
Qed.
Lemma like_first scale aligned f g i : info_of scale aligned f = Some i -> depth g = depth f -> chans g = chans f -> (aligned = true -> chans f = 3 -> usual_depth (depth f)) -> convertible i g.
Proof.
  intros E D C U. apply info_of_some in E. destruct E as (h & w & _ & _ & _ & _ & _ & E1 & E2). split; [ congruence |].
  destruct (Z.eqb_spec (chans f) 3) as [T|T], aligned; cbn [andb] in E2; try (left; congruence). right. rewrite C, D. auto.
Qed.

(* image sets *)
Lemma erase_readable fs : readable (erase fs) = readable fs.
Proof. induction fs as [|[f|] fs IH]; [ reflexivity | reflexivity | exact IH ]. Qed.
Lemma erase_head fs : match erase fs with None :: _ => False | _ => True end.
Proof. induction fs as [|[f|] fs IH]; [ exact Logic.I | exact Logic.I | exact IH ]. Qed.
Lemma erase_length fs : (length (erase fs) <= length fs)%nat.
Proof. induction fs as [|[f|] fs IH]; cbn; lia. Qed.
Lemma info_eqb_eq a b : info_eqb a b = true <-> a = b.
Proof.
  unfold info_eqb. rewrite !andb_true_iff, !Z.eqb_eq. destruct a as [[[h w]|] d c], b as [[[h' w']|] d' c']; cbn; rewrite ?size_match; split; intro H; intuition congruence.
Qed.
Lemma loop_spec scale aligned fuel : forall front rest is lst const g,
  parse_loop fuel scale aligned (map Some front) rest is lst const = Some g -> (length rest <= fuel)%nat ->
  Forall2 (fun f i => info_of scale aligned f = Some i) front is -> (match lst with Some l => In l is | None => is = [] end) -> (const = true <-> all_same is) ->
  paths g = map Some (front ++ readable rest) /\ Forall2 (fun f i => info_of scale aligned f = Some i) (front ++ readable rest) (infos g) /\ (constant g = true <-> all_same (infos g)).
Proof.
  induction fuel as [|k IH]; intros front rest is lst const g E L F M C; cbn [parse_loop] in E.
  - destruct rest; [| cbn in L; lia ]. cbn [readable flat_map]. rewrite app_nil_r. inversion E; subst; auto.
  - pose proof (erase_readable rest) as R. pose proof (erase_head rest) as Hd. pose proof (erase_length rest) as Len. rewrite <- R. clear R.
    destruct (erase rest) as [|[im|] rest'].
    + cbn [readable flat_map]. rewrite app_nil_r. inversion E; subst; auto.
    + destruct (info_of scale aligned im) as [i|] eqn:I; [| discriminate ].
      change (readable (Some im :: rest')) with (im :: readable rest'). change (im :: readable rest') with ([im] ++ readable rest'). rewrite app_assoc.
      replace (map Some front ++ [Some im]) with (map (@Some image) (front ++ [im])) in E by (rewrite map_app; reflexivity).
      apply IH in E; auto.
      * cbn in Len. lia.
      * apply Forall2_app; auto.
      * apply in_app_iff. right. left. reflexivity.
      * destruct lst as [l|].
        -- destruct (info_eqb l i) eqn:B; cbn [negb].
           ++ apply info_eqb_eq in B. subst i. rewrite C. unfold all_same. split; intros A a b Ia Ib.
              ** apply in_app_iff in Ia, Ib. destruct Ia as [Ia | [<- | []]], Ib as [Ib | [<- | []]]; auto.
              ** apply A; apply in_app_iff; auto.
           ++ split; [ discriminate |]. intro A. assert (l = i) as X by (apply A; apply in_app_iff; cbn; auto). apply info_eqb_eq in X. congruence.
        -- subst is. rewrite C. split; [| intros _ a b []]. intros _ a b [<- | []] [<- | []]. reflexivity.
    + contradiction.
Qed.
Lemma images_spec scale aligned fs g : parse_images scale aligned fs = Some g ->
  paths g = map Some (readable fs) /\ Forall2 (fun f i => info_of scale aligned f = Some i) (readable fs) (infos g) /\ (constant g = true <-> all_same (infos g)).
Proof.
  unfold parse_images. destruct fs as [|f0 fs]; [ discriminate |]. destruct (parse_loop _ _ _ _ _ _ _ _) as [g'|] eqn:E; [| discriminate ].
  intro H. assert (g' = g) by (destruct (infos g'); congruence). subst g'. change (@nil (option image)) with (map (@Some image) []) in E.
  apply loop_spec in E; auto. split; [ intros _ a b [] | reflexivity ].
Qed.
Lemma parse_images_some scale aligned fs : readable fs <> [] -> (forall f, In f (readable fs) -> exists i, info_of scale aligned f = Some i) -> exists g, parse_images scale aligned fs = Some g.
Proof.
  intros N A. destruct fs as [|f0 fs]; [ contradiction N; reflexivity |]. unfold parse_images.
  assert (X : forall fuel front rest is lst const, (forall f, In f (readable rest) -> exists i, info_of scale aligned f = Some i) -> exists g, parse_loop fuel scale aligned front rest is lst const = Some g).
  { induction fuel as [|k IH]; intros front rest is lst const B; cbn [parse_loop]; [ eexists; reflexivity |].
    rewrite <- erase_readable in B. pose proof (erase_head rest) as Hd. destruct (erase rest) as [|[im|] rest']; [ eexists; reflexivity | | contradiction ].
    destruct (B im) as [i I]; [ left; reflexivity |]. rewrite I. apply IH. intros f F. apply B. right. exact F. }
  destruct (X (length (f0 :: fs)) [] (f0 :: fs) [] None true A) as [g G]. rewrite G.
  pose proof G as G2. change (@nil (option image)) with (map (@Some image) []) in G2. apply loop_spec in G2; auto; [| split; [ intros _ a b [] | reflexivity ]].
  destruct G2 as (_ & G2 & _). destruct (infos g) as [|i is] eqn:Q; [| eexists; reflexivity ]. cbn [app] in G2. inversion G2 as [E1|]. exfalso. apply N. symmetry. exact E1.
Qed.
Lemma Forall2_nth {A B} (P : A -> B -> Prop) l m : Forall2 P l m -> forall n a d, nth_error l n = Some a -> P a (nth n m d).
Proof. intro F. induction F; intros [|n] a d E; cbn in *; try discriminate; [ congruence | eauto ]. Qed.
Lemma Forall2_len {A B} (P : A -> B -> Prop) l m : Forall2 P l m -> length l = length m.
Proof. intro F. induction F; cbn; congruence. Qed.
Lemma image_at scale aligned fs g i f : parse_images scale aligned fs = Some g -> 0 <= i -> nth_error (readable fs) (Z.to_nat i) = Some f ->
  raw_image g i = Some f /\ info_of scale aligned f = Some (image_info g i).
Proof.
  intros E P N. apply images_spec in E. destruct E as (E1 & E2 & _). pose proof (Forall2_len _ _ _ E2) as Len. pose proof (nth_error_range _ _ _ N P) as R.
  unfold raw_image, image_info. rewrite E1, map_length, <- Len. replace (_ <=? i) with false by (symmetry; apply Z.leb_gt; lia).
  rewrite (map_nth_error Some _ _ N). split; [ reflexivity |]. apply (Forall2_nth _ _ _ E2). exact N.
Qed.
Lemma image_shown grey scale aligned fs g i f : parse_images scale aligned fs = Some g -> 0 <= i -> nth_error (readable fs) (Z.to_nat i) = Some f -> well_formed f ->
  (aligned = true -> chans f = 3 -> usual_depth (depth f)) -> exists o, load_image grey g i = Packet (Some o) /\ shows grey (image_info g i) f o.
Proof.
  intros E P N W U. destruct (image_at _ _ _ _ _ _ E P N) as [R I]. unfold load_image. rewrite R.
  pose proof (info_of_some _ _ _ _ I) as (h & w & S & H1 & H2 & _). apply (redirect_shows grey _ f h w); auto. eapply like_first; eauto.
Qed.
Lemma image_past grey scale aligned fs g i : parse_images scale aligned fs = Some g -> Z.of_nat (length (readable fs)) <= i -> load_image grey g i = Packet None.
Proof.
  intros E P. apply images_spec in E. destruct E as (E1 & E2 & _). pose proof (Forall2_len _ _ _ E2) as Len.
  unfold load_image, raw_image, image_info. rewrite E1, map_length, <- Len. replace (_ <=? i) with true by (symmetry; apply Z.leb_le; lia). reflexivity.
Qed.

(* ground truth *)
Lemma gt_none grey g i : length (gt_files g) = length (gt_infos g) -> (table g i = None \/ exists k, table g i = Some k /\ Z.of_nat (length (gt_files g)) <= k) -> load_gt grey g i = Packet None.
Proof.
  intros L [N | (k & N & K)]; unfold load_gt, gt_info, raw_gt; rewrite N; [ reflexivity |]. rewrite <- L. replace (k <? _) with false by (symmetry; apply Z.ltb_ge; lia). reflexivity.
Qed.
Lemma gt_shown grey scale aligned g i k f : length (gt_files g) = length (gt_infos g) -> table g i = Some k -> 0 <= k -> nth_error (gt_files g) (Z.to_nat k) = Some (Some f) -> well_formed f ->
  (forall d, info_of scale aligned f = Some (nth (Z.to_nat k) (gt_infos g) d)) -> (aligned = true -> chans f = 3 -> usual_depth (depth f)) ->
  exists o, load_gt grey g i = Packet (Some o) /\ shows grey (gt_info g i) f o.
Proof.
  intros L T P N W I U. pose proof (nth_error_range _ _ _ N P) as R. unfold load_gt, gt_info, raw_gt. rewrite T, <- L. replace (k <? _) with true by (symmetry; apply Z.ltb_lt; lia). rewrite N.
  pose proof (info_of_some _ _ _ _ (I no_info)) as (h & w & S & H1 & H2 & _). apply (redirect_shows grey _ f h w); auto. eapply like_first; eauto.
Qed.

(* sizes are rounded to the nearest *)
Lemma nearest_half q : (inject_Z (nearest q) - (1 # 2) <= q <= inject_Z (nearest q) + (1 # 2))%Q.
Proof.
  unfold nearest. cbv zeta. pose proof (Qfloor_le q) as A. pose proof (Qlt_floor q) as B. rewrite inject_Z_plus in B. set (f := Qfloor q) in *. change (inject_Z 1) with 1%Q in B.
  destruct (q - inject_Z f ?= 1 # 2)%Q eqn:C.
  - apply Qeq_alt in C. destruct (Z.even f); [| rewrite inject_Z_plus; change (inject_Z 1) with 1%Q ]; split; lra.
  - apply Qlt_alt in C. split; lra.
  - apply Qgt_alt in C. rewrite inject_Z_plus. change (inject_Z 1) with 1%Q. split; lra.
Qed.
Lemma scaled_half scale v : (inject_Z (scaled scale v) - (1 # 2) <= inject_Z v * scale <= inject_Z (scaled scale v) + (1 # 2))%Q.
Proof.
  unfold scaled. destruct (Qeq_bool scale 1) eqn:E; [| apply nearest_half ]. apply Qeq_bool_eq in E.
  assert (X : (inject_Z v * scale == inject_Z v)%Q) by (rewrite E; ring). rewrite X. split; lra.
Qed.

Lemma missing grey scale aligned d p s r is i : parse_video scale aligned d = Some (p, s) -> src p = Video r -> stays_out r -> Forall is_index is -> is_index i ->
  Z.of_nat (length (frames r)) <= i < count p -> snd (get_input grey p (gets grey p s is) i) = Fails.
Proof.
  intros E V ST F I P. apply parse_video_new in E. destruct E as (_ & (F1 & F2 & F3) & x & X & _). apply info_of_some in X. destruct X as (h & w & X & _).
  set (ok := fun s => off r (cur s) /\ ~ Z.of_nat (length (frames r)) <= last s < count p).
  assert (Step : forall s j, is_index j -> ok s -> ok (fst (get_input grey p s j)) /\ (Z.of_nat (length (frames r)) <= j < count p -> snd (get_input grey p s j) = Fails)).
  { clear s F1 F2 F3. intros s j J [T L]. unfold get_input. destruct (Z.eqb_spec j (last s)) as [E|E].
    - cbn [fst snd]. split; [ split; auto | lia ].
    - rewrite V. destruct (raw_off r (cur s) j ST J T) as [T' R]. destruct (raw_input (Video r) (cur s) j) as [raw c] eqn:W. cbn [fst snd] in *.
      destruct (Z_le_gt_dec (Z.of_nat (length (frames r))) j) as [A|A]; [ destruct (Z_lt_ge_dec j (count p)) as [B|B] |].
      + rewrite R by lia. unfold info_at. replace (count p <=? j) with false by (symmetry; apply Z.leb_gt; lia). cbn [redirect]. rewrite X. cbn [fst snd]. split; [ split; auto | auto ].
      + destruct (redirect grey true (info_at p j) raw) as [o|] eqn:D; cbn [fst snd]; (split; [ split; cbn [cur last]; auto; lia | lia ]).
      + destruct (redirect grey true (info_at p j) raw) as [o|] eqn:D; cbn [fst snd]; (split; [ split; cbn [cur last]; auto; lia | lia ]). }
  assert (Z.of_nat (length (frames r)) <= size_max < count p \/ ok s) as [Big | L].
  { destruct (Z_lt_ge_dec size_max (count p)); [| right; split; [ rewrite F3; unfold off; cbn; lia | rewrite F1; lia ] ].
    left. unfold is_index in I. lia. }
  - (* m_nLastReqIdx starts as the largest index *)
    set (ok2 := fun s => off r (cur s) /\ (last s = size_max \/ ~ Z.of_nat (length (frames r)) <= last s < count p)).
    assert (Step2 : forall s j, is_index j -> ok2 s -> ok2 (fst (get_input grey p s j)) /\ (Z.of_nat (length (frames r)) <= j < count p -> snd (get_input grey p s j) = Fails)).
    { clear s F1 F2 F3. intros s j J [T L]. unfold get_input. unfold is_index in J. destruct (Z.eqb_spec j (last s)) as [E|E].
      - cbn [fst snd]. split; [ split; auto | lia ].
      - rewrite V. destruct (raw_off r (cur s) j ST J T) as [T' R]. destruct (raw_input (Video r) (cur s) j) as [raw c] eqn:W. cbn [fst snd] in *.
        destruct (Z_le_gt_dec (Z.of_nat (length (frames r))) j) as [A|A].
        + rewrite R by lia. unfold info_at. replace (count p <=? j) with false by (symmetry; apply Z.leb_gt; lia). cbn [redirect]. rewrite X. cbn [fst snd]. split; [ split; auto | auto ].
        + destruct (redirect grey true (info_at p j) raw) as [o|] eqn:D; cbn [fst snd]; (split; [ split; cbn [cur last]; auto; right; lia | lia ]). }
    assert (L : ok2 s) by (split; [ rewrite F3; unfold off; cbn; lia | auto ]).
    clear F1 F2 F3. revert s L. induction F as [|j is J F IH]; intros s L; cbn [gets]; [ apply Step2; auto | apply IH; apply Step2; auto ].
  - clear F1 F2 F3. revert s L. induction F as [|j is J F IH]; intros s L; cbn [gets]; [ apply Step; auto | apply IH; apply Step; auto ].
Qed.
Lemma no_info_fails grey f : redirect grey true no_info (Some f) = Fails.
Proof. cbn [redirect]. unfold transform. cbn [isize no_info]. destruct (if _ && _ then _ else _); reflexivity. Qed.
