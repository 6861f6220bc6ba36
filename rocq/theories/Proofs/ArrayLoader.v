From Coq Require Import ZArith List Bool Lia.
From Verif Require Import Model.Archive Model.Pack Model.ArrayLoader Spec.Pack Spec.ArrayLoader Proofs.Archive Proofs.Pack.
Import ListNotations.
Open Scope Z_scope.

Lemma pack_right ms : packable ms -> exists p out, packData ms = Some p /\ unpackData p (infos ms) = Some out /\ Forall2 same_content ms out.
Proof. intros [W B]. destruct (pack_unpack_same ms W B) as (p & out & P & _ & U & S). eauto 6. Qed.
Lemma look_own l : viewed l = buffer l -> look l = Shown (view l).
Proof. intro E. unfold look. rewrite E, Nat.eqb_refl. cbn [negb]. rewrite andb_false_r. reflexivity. Qed.

(* inputs *)
Section Inputs.
  Variable raw : Z -> option (list nmat).
  Hypothesis PK : packable_all raw.

  Lemma array_new l i ms : last l <> i -> raw i = Some ms ->
    exists p out, get_array (input_load raw) (input_infos raw i) l i = (Loader i p (S (buffer l)) out (S (buffer l)), Shown out) /\ Forall2 same_content ms out.
  Proof.
    intros N R. destruct (pack_right ms (PK i ms R)) as (p & out & P & U & F). exists p, out. split; [| exact F ].
    unfold get_array, get_packet, input_load, input_infos. rewrite R, P. apply Z.eqb_neq in N. rewrite N, Z.eqb_sym, N. cbn [last packet buffer view viewed].
    rewrite U. cbv zeta. rewrite look_own by reflexivity. reflexivity.
  Qed.
  Lemma packet_new l i ms : last l <> i -> raw i = Some ms -> exists p, packData ms = Some p /\ get_packet (input_load raw) l i = (Loader i p (S (buffer l)) (view l) (viewed l), Some p).
  Proof.
    intros N R. destruct (pack_right ms (PK i ms R)) as (p & out & P & U & F). exists p. split; [ exact P |].
    unfold get_packet, input_load. rewrite R, P. apply Z.eqb_neq in N. rewrite Z.eqb_sym, N. reflexivity.
  Qed.
  Lemma packet_fails l i : last l <> i -> raw i = None -> get_packet (input_load raw) l i = (l, None).
  Proof. intros N R. unfold get_packet, input_load. rewrite R. apply Z.eqb_neq in N. rewrite Z.eqb_sym, N. reflexivity. Qed.
  Lemma array_fails l i is : last l <> i -> raw i = None -> get_array (input_load raw) is l i = (l, Throws).
  Proof. intros N R. unfold get_array. rewrite (packet_fails l i N R). apply Z.eqb_neq in N. rewrite N. reflexivity. Qed.

  (* after a request that succeeded its index is the last one *)
  Lemma step_last l c ms : raw (asked c) = Some ms -> last (input_step raw l c) = asked c.
  Proof.
    intro R. destruct (Z.eq_dec (last l) (asked c)) as [E|N].
    - destruct c as [i|i]; cbn [input_step asked] in *; [ unfold get_array; rewrite (proj2 (Z.eqb_eq _ _) E) | unfold get_packet; rewrite (proj2 (Z.eqb_eq i (last l))) by auto ]; auto.
    - destruct c as [i|i]; cbn [input_step asked] in *.
      + destruct (array_new l i ms N R) as (p & out & E & _). rewrite E. reflexivity.
      + destruct (packet_new l i ms N R) as (p & _ & E). rewrite E. reflexivity.
  Qed.
  Lemma run_app cs c : input_run raw (cs ++ [c]) = input_step raw (input_run raw cs) c.
  Proof. unfold input_run. rewrite fold_left_app. reflexivity. Qed.

  (* only arrays *)
  Definition arrays_ok (l : loader) : Prop := viewed l = buffer l /\ (last l = size_max \/ exists ms, raw (last l) = Some ms /\ Forall2 same_content ms (view l)).
  Lemma arrays_step l i : arrays_ok l -> arrays_ok (fst (get_array (input_load raw) (input_infos raw i) l i)).
  Proof.
    intros A. destruct (Z.eq_dec (last l) i) as [E|N].
    - unfold get_array. rewrite (proj2 (Z.eqb_eq _ _) E). exact A.
    - destruct (raw i) as [ms|] eqn:R.
      + destruct (array_new l i ms N R) as (p & out & E & F). rewrite E. cbn [fst]. split; [ reflexivity |]. right. exists ms. auto.
      + rewrite array_fails by auto. exact A.
  Qed.
  Lemma arrays_run cs : Forall (fun c => match c with InputArray _ => True | _ => False end) cs -> arrays_ok (input_run raw cs).
  Proof.
    intro F. induction cs as [|c cs IH] using rev_ind.
    - split; [ reflexivity | left; reflexivity ].
    - apply Forall_app in F. destruct F as [F1 F2]. inversion F2 as [|? ? C _]; subst. rewrite run_app. destruct c as [i|i]; [| contradiction ]. apply arrays_step. auto.
  Qed.
  Lemma arrays_only cs i : Forall (fun c => match c with InputArray _ => True | _ => False end) cs -> is_index i ->
    match raw i with Some ms => right ms (input_array raw (input_run raw cs) i) | None => input_array raw (input_run raw cs) i = Throws end.
  Proof.
    intros F I. destruct (arrays_run cs F) as [V L]. set (l := input_run raw cs) in *. clearbody l. unfold input_array.
    destruct (Z.eq_dec (last l) i) as [E|N].
    - unfold get_array. rewrite (proj2 (Z.eqb_eq _ _) E). cbn [snd]. rewrite look_own by exact V. unfold is_index in I.
      destruct L as [L | (ms & R & S)]; [ lia |]. rewrite <- E, R. exists (view l). auto.
    - destruct (raw i) as [ms|] eqn:R.
      + destruct (array_new l i ms N R) as (p & out & E & S). rewrite E. exists out. auto.
      + rewrite array_fails by auto. reflexivity.
  Qed.
  (* after a request of another index that succeeded *)
  Lemma after_other cs c mc i ms : raw (asked c) = Some mc -> asked c <> i -> raw i = Some ms -> right ms (input_array raw (input_run raw (cs ++ [c])) i).
  Proof.
    intros Rc N R. unfold input_array. rewrite run_app. set (l := input_step raw (input_run raw cs) c).
    assert (L : last l <> i) by (unfold l; rewrite (step_last _ _ _ Rc); auto).
    destruct (array_new l i ms L R) as (p & out & E & S). rewrite E. exists out. auto.
  Qed.
  (* the packed data of the same index in between *)
  Lemma has_memory_spec ms : has_memory ms = true <-> exists m, In m ms /\ bytes m <> [].
  Proof.
    unfold has_memory. rewrite existsb_exists. split; intros (m & M & B); exists m; (split; [ exact M |]); destruct (bytes m); cbn in *; congruence.
  Qed.
  Lemma same_memory ms out : Forall2 same_content ms out -> (exists m, In m ms /\ bytes m <> []) -> has_memory out = true.
  Proof.
    intros F (m & M & B). apply has_memory_spec. induction F as [|a b l l' [S1 S2] F IH]; [ destruct M |]. destruct M as [<- | M].
    - exists b. split; [ left; reflexivity |]. rewrite S1; auto.
    - destruct (IH M) as (x & X & Y). exists x. split; [ right; exact X | exact Y ].
  Qed.
  Lemma stale cs j i mj mi : Forall (fun c => match c with InputArray _ => True | _ => False end) cs -> is_index j -> raw j = Some mj -> raw i = Some mi -> i <> j -> (exists m, In m mj /\ bytes m <> []) ->
    input_array raw (input_run raw (cs ++ [InputArray j; InputPacket i])) i = Dangling.
  Proof.
    intros F J Rj Ri N M. replace (cs ++ [InputArray j; InputPacket i]) with ((cs ++ [InputArray j]) ++ [InputPacket i]) by (rewrite <- app_assoc; reflexivity).
    rewrite run_app. assert (F' : Forall (fun c => match c with InputArray _ => True | _ => False end) (cs ++ [InputArray j])) by (apply Forall_app; auto).
    destruct (arrays_run _ F') as [V L]. assert (Lj : last (input_run raw (cs ++ [InputArray j])) = j) by (rewrite run_app; apply (step_last _ (InputArray j) mj); auto).
    set (l := input_run raw (cs ++ [InputArray j])) in *. clearbody l. cbn [input_step].
    destruct (packet_new l i mi ltac:(lia) Ri) as (p & _ & E). rewrite E. cbn [fst]. unfold input_array, get_array. cbn [last]. rewrite Z.eqb_refl. cbn [snd].
    unfold look. cbn [view viewed buffer]. rewrite V. replace (Nat.eqb (buffer l) (S (buffer l))) with false by (symmetry; apply Nat.eqb_neq; lia).
    unfold is_index in J. destruct L as [L | (ms & R & S)]; [ lia |]. rewrite Lj in R. assert (ms = mj) by congruence. subst ms. rewrite (same_memory mj _ S M). reflexivity.
  Qed.
End Inputs.

(* features *)
Lemma features_app cs c : feature_run (cs ++ [c]) = feature_step (feature_run cs) c.
Proof. unfold feature_run. rewrite fold_left_app. reflexivity. Qed.
Definition held (fs : Z -> option nmat) (i : Z) : nmat := match fs i with Some m => m | None => empty_mat end.
Lemma packet_feature fs l i : get_packet (raw_features fs) l i = if i =? last l then (l, Some (packet l)) else (Loader i (held fs i) (S (buffer l)) (view l) (viewed l), Some (held fs i)).
Proof. reflexivity. Qed.
Lemma array_last fs is l i : last (fst (get_array (raw_features fs) is l i)) = i.
Proof.
  unfold get_array. destruct (Z.eqb_spec (last l) i) as [E|N]; [ exact E |]. rewrite packet_feature. replace (i =? last l) with false by (symmetry; apply Z.eqb_neq; auto).
  destruct (unpackData _ is); reflexivity.
Qed.
Lemma packet_last fs l i : last (fst (get_packet (raw_features fs) l i)) = i.
Proof. rewrite packet_feature. destruct (Z.eqb_spec i (last l)) as [E|N]; [ auto | reflexivity ]. Qed.
Lemma step_files f c i : ~ saves i c -> files (feature_step f c) i = files f i.
Proof.
  destruct c as [j m|j ms|j|j is]; cbn [feature_step saves]; intro N; try reflexivity.
  - cbn [files]. unfold put. destruct (empty_of m); [ reflexivity |]. apply Z.eqb_neq in N. rewrite Z.eqb_sym, N. reflexivity.
  - destruct (packData ms); [| reflexivity ]. cbn [files]. unfold put. destruct (empty_of n); [ reflexivity |]. apply Z.eqb_neq in N. rewrite Z.eqb_sym, N. reflexivity.
Qed.
Lemma run_files b : forall f i, Forall (fun c => ~ saves i c) b -> files (fold_left feature_step b f) i = files f i.
Proof. induction b as [|c b IH]; intros f i F; [ reflexivity |]. inversion F; subst. cbn [fold_left]. rewrite IH by auto. apply step_files. auto. Qed.
Lemma empty_of_wf m : wf_any m -> (empty_of m = true <-> bytes m = []).
Proof.
  intros [W L]. unfold empty_of. rewrite Z.eqb_eq. pose proof (esz_pos (ty m)). pose proof (ntotal_nonneg _ W). split; intro E.
  - destruct (bytes m); auto. cbn [length] in L. nia.
  - rewrite E in L. cbn in L. nia.
Qed.
Lemma file_saved cs i m : saved cs i m -> wf_any m -> nonempty m -> files (feature_run cs) i = Some m.
Proof.
  intros (a & b & -> & F) W N. unfold feature_run. rewrite fold_left_app. cbn [fold_left]. rewrite run_files by exact F. cbn [feature_step files]. unfold put.
  destruct (empty_of m) eqn:E; [ apply empty_of_wf in E; [ contradiction | exact W ] |]. rewrite Z.eqb_refl. reflexivity.
Qed.
Lemma file_saved_array cs i ms p : saved_array cs i ms -> packData ms = Some p -> wf_any p -> nonempty p -> files (feature_run cs) i = Some p.
Proof.
  intros (a & b & -> & F) P W N. unfold feature_run. rewrite fold_left_app. cbn [fold_left]. rewrite run_files by exact F. cbn [feature_step]. rewrite P. cbn [files]. unfold put.
  destruct (empty_of p) eqn:E; [ apply empty_of_wf in E; [ contradiction | exact W ] |]. rewrite Z.eqb_refl. reflexivity.
Qed.
Lemma file_never cs i : never_saved cs i -> files (feature_run cs) i = None.
Proof. intro F. unfold feature_run. rewrite run_files by exact F. reflexivity. Qed.

Lemma last_loaded cs : last (feats (feature_run cs)) = size_max \/ loaded_last cs (last (feats (feature_run cs))).
Proof.
  induction cs as [|c cs IH] using rev_ind; [ left; reflexivity |]. rewrite features_app.
  assert (Keep : load_of c = None -> feats (feature_step (feature_run cs) c) = feats (feature_run cs) -> last (feats (feature_step (feature_run cs) c)) = size_max \/ loaded_last (cs ++ [c]) (last (feats (feature_step (feature_run cs) c)))).
  { intros N ->. destruct IH as [IH | (a & d & b & E & D & F)]; [ left; exact IH | right ]. exists a, d, (b ++ [c]). rewrite E at 1. rewrite <- app_assoc. cbn [app]. split; [ reflexivity |]. split; [ exact D |]. apply Forall_app. auto. }
  destruct c as [j m|j ms|j|j is].
  - apply Keep; reflexivity.
  - apply Keep; [ reflexivity |]. cbn. destruct (packData ms); reflexivity.
  - right. cbn [feature_step feats]. rewrite packet_last. exists cs, (LoadF j), []. auto.
  - right. cbn [feature_step feats]. rewrite array_last. exists cs, (LoadArray j is), []. auto.
Qed.
(* the packet held is that of the file *)
Definition fresh (f : features) : Prop := last (feats f) = size_max \/ packet (feats f) = held (files f) (last (feats f)).
Lemma fresh_step cs c : fresh (feature_run cs) -> (forall i, saves i c -> ~ loaded_last cs i) -> fresh (feature_run (cs ++ [c])).
Proof.
  intros Fr T. rewrite features_app. pose proof (last_loaded cs) as L. set (f := feature_run cs) in *. clearbody f.
  assert (Sv : forall i, saves i c -> last (feats f) = size_max \/ last (feats f) <> i).
  { intros i S. destruct L as [L|L]; [ auto |]. right. intros <-. exact (T _ S L). }
  assert (Keep : forall i, saves i c -> feats (feature_step f c) = feats f -> fresh (feature_step f c)).
  { intros i S E. unfold fresh. rewrite E. destruct (Sv i S) as [A|A]; [ left; exact A |]. destruct Fr as [Fr|Fr]; [ left; exact Fr | right ]. rewrite Fr. unfold held. rewrite step_files; [ reflexivity |].
    intro S'. destruct c; cbn [saves] in *; try contradiction; congruence. }
  destruct c as [j m|j ms|j|j is].
  - apply (Keep j); reflexivity.
  - apply (Keep j); [ reflexivity |]. cbn. destruct (packData ms); reflexivity.
  - cbn [feature_step]. unfold fresh in *. cbn [files feats]. rewrite packet_feature. destruct (Z.eqb_spec j (last (feats f))) as [E|N]; cbn [fst]; [ exact Fr | right; reflexivity ].
  - cbn [feature_step]. unfold fresh in *. cbn [files feats]. unfold get_array. destruct (Z.eqb_spec (last (feats f)) j) as [E|N]; cbn [fst]; [ exact Fr |].
    rewrite packet_feature. replace (j =? last (feats f)) with false by (symmetry; apply Z.eqb_neq; auto). destruct (unpackData _ is); right; reflexivity.
Qed.
Lemma tidy_prefix cs c : tidy (cs ++ [c]) -> tidy cs /\ (forall i, saves i c -> ~ loaded_last cs i).
Proof.
  intro T. split.
  - intros a d b i E. subst cs. apply (T a d (b ++ [c]) i). rewrite <- app_assoc. reflexivity.
  - intros i. apply (T cs c [] i). reflexivity.
Qed.
Lemma tidy_fresh cs : tidy cs -> fresh (feature_run cs).
Proof.
  induction cs as [|c cs IH] using rev_ind; intro T; [ left; reflexivity |]. apply tidy_prefix in T. destruct T as [T1 T2]. apply fresh_step; auto.
Qed.
Lemma load_held cs i : tidy cs -> is_index i -> load_features (feature_run cs) i = Some (held (files (feature_run cs)) i).
Proof.
  intros T I. pose proof (tidy_fresh cs T) as F. unfold load_features. rewrite packet_feature. destruct (Z.eqb_spec i (last (feats (feature_run cs)))) as [E|N]; [| reflexivity ].
  cbn [snd]. unfold is_index in I. destruct F as [F|F]; [ lia |]. rewrite F, <- E. reflexivity.
Qed.
Lemma not_last cs i : ~ loaded_last cs i -> is_index i -> last (feats (feature_run cs)) <> i.
Proof. intros N I E. destruct (last_loaded cs) as [L|L]; [ unfold is_index in I; lia |]. apply N. rewrite <- E. exact L. Qed.
Lemma load_other cs i : ~ loaded_last cs i -> is_index i -> load_features (feature_run cs) i = Some (held (files (feature_run cs)) i).
Proof. intros N I. pose proof (not_last cs i N I) as L. unfold load_features. rewrite packet_feature. replace (i =? _) with false by (symmetry; apply Z.eqb_neq; auto). reflexivity. Qed.
Lemma load_saved cs i m : (tidy cs \/ ~ loaded_last cs i) -> is_index i -> saved cs i m -> wf_any m -> nonempty m -> load_features (feature_run cs) i = Some m.
Proof.
  intros T I S W N. replace (Some m) with (Some (held (files (feature_run cs)) i)); [ destruct T; [ apply load_held | apply load_other ]; auto |].
  unfold held. rewrite (file_saved cs i m) by auto. reflexivity.
Qed.
Lemma load_never cs i : is_index i -> never_saved cs i -> load_features (feature_run cs) i = Some empty_mat.
Proof.
  intros I N. replace (Some empty_mat) with (Some (held (files (feature_run cs)) i)) by (unfold held; rewrite (file_never cs i N); reflexivity).
  (* nothing is saved for i, so what is held for i is the empty matrix *)
  assert (K : last (feats (feature_run cs)) = i -> packet (feats (feature_run cs)) = empty_mat).
  { clear -I N. induction cs as [|c cs IH] using rev_ind; [ reflexivity |]. apply Forall_app in N. destruct N as [N1 N2]. specialize (IH N1). rewrite features_app. pose proof (file_never cs i N1) as FN. set (f := feature_run cs) in *. clearbody f.
    destruct c as [j m|j ms|j|j is]; cbn [feature_step].
    - exact IH.
    - destruct (packData ms); exact IH.
    - cbn [feats]. rewrite packet_feature. destruct (Z.eqb_spec j (last (feats f))) as [E|E]; cbn [fst last packet]; [ exact IH |]. intros ->. unfold held. rewrite FN. reflexivity.
    - cbn [feats]. unfold get_array. destruct (Z.eqb_spec (last (feats f)) j) as [E|E]; cbn [fst]; [ exact IH |]. rewrite packet_feature. replace (j =? last (feats f)) with false by (symmetry; apply Z.eqb_neq; auto).
      destruct (unpackData _ is); cbn [fst last packet]; intros ->; unfold held; rewrite FN; reflexivity. }
  unfold load_features. rewrite packet_feature. destruct (Z.eqb_spec i (last (feats (feature_run cs)))) as [E|E]; [| reflexivity ]. cbn [snd]. rewrite K by auto. unfold held. rewrite (file_never cs i N). reflexivity.
Qed.
Lemma packed_nonempty ms p : packable ms -> packData ms = Some p -> (exists m, In m ms /\ nonempty m) -> wf_any p /\ nonempty p.
Proof.
  intros [W B] P (m & M & N). destruct (pack_unpack ms W B) as (q & Q & Wq & E & _). assert (q = p) by congruence. subst q. split; [ exact Wq |].
  unfold nonempty. rewrite E. intro X. apply in_split in M. destruct M as (a & b & ->). rewrite flat_map_app in X. cbn [flat_map] in X. apply app_eq_nil in X. destruct X as [_ X]. apply app_eq_nil in X. destruct X as [X _]. exact (N X).
Qed.
Lemma load_array_saved cs i ms : ~ loaded_last cs i -> is_index i -> saved_array cs i ms -> packable ms -> (exists m, In m ms /\ nonempty m) -> right ms (load_array (feature_run cs) i (infos ms)).
Proof.
  intros L I S P M. destruct (pack_right ms P) as (p & out & Q & U & F). destruct (packed_nonempty ms p P Q M) as [W N].
  pose proof (not_last cs i L I) as NL. unfold load_array, get_array. rewrite packet_feature. replace (i =? _) with false by (symmetry; apply Z.eqb_neq; auto). apply Z.eqb_neq in NL. rewrite NL.
  unfold held. rewrite (file_saved_array cs i ms p) by auto. rewrite U. cbv zeta. cbn [snd]. rewrite look_own by reflexivity. exists out. auto.
Qed.
(* saving after loading is not noticed *)
Lemma stale_load cs i m : load_features (feature_run (cs ++ [LoadF i; Save i m])) i = load_features (feature_run cs) i.
Proof.
  replace (cs ++ [LoadF i; Save i m]) with ((cs ++ [LoadF i]) ++ [Save i m]) by (rewrite <- app_assoc; reflexivity). rewrite !features_app. set (f := feature_run cs). clearbody f.
  cbn [feature_step files feats]. unfold load_features. cbn [files feats]. rewrite !packet_feature. destruct (Z.eqb_spec i (last (feats f))) as [E|E]; cbn [fst last].
  - rewrite E, Z.eqb_refl. reflexivity.
  - rewrite Z.eqb_refl. reflexivity.
Qed.
(* the information is not looked at for the index loaded last *)
Lemma stale_info cs i is js : snd (get_array (raw_features (files (feature_run (cs ++ [LoadArray i is])))) js (feats (feature_run (cs ++ [LoadArray i is]))) i) = look (feats (feature_run (cs ++ [LoadArray i is]))).
Proof.
  rewrite features_app. cbn [feature_step files feats]. pose proof (array_last (files (feature_run cs)) is (feats (feature_run cs)) i) as L.
  set (l := fst _) in *. clearbody l. unfold get_array. rewrite (proj2 (Z.eqb_eq _ _) L). reflexivity.
Qed.

(* outputs *)
Lemma key_refl k : key_eqb k k = true.
Proof. destruct k as [[i [k|]] e]; cbn; rewrite Z.eqb_refl, ?Nat.eqb_refl; destruct e; reflexivity. Qed.
Lemma key_stream i k e i' k' e' : key_eqb (i, Some k, e) (i', Some k', e') = true -> i = i' /\ k = k' /\ e = e'.
Proof. cbn. rewrite !andb_true_iff, Z.eqb_eq, Nat.eqb_eq, eqb_true_iff. tauto. Qed.
Lemma key_index a b : key_eqb a b = true -> fst (fst a) = fst (fst b).
Proof. destruct a as [[i k] e], b as [[i' k'] e']. cbn. rewrite !andb_true_iff, Z.eqb_eq. tauto. Qed.
Lemma store_same a k m : store a k m k = Some m.
Proof. unfold store. rewrite key_refl. reflexivity. Qed.
Lemma store_other a k k' m : key_eqb k' k = false -> store a k m k' = a k'.
Proof. unfold store. intros ->. reflexivity. Qed.
Definition ext (t : kind) : bool := match t with ImageArrayKind => true | _ => false end.
Definition kept (png : nmat -> nmat) (t : kind) (m : nmat) : nmat := match t with ImageArrayKind => png m | _ => m end.
Lemma streams_eq png t a i k m r : store_streams png t a i k (m :: r) = store_streams png t (store a (i, Some k, ext t) (kept png t m)) i (S k) r.
Proof. destruct t; reflexivity. Qed.
Lemma streams_before png t i ms : forall a k key, (forall n, (k <= n)%nat -> key_eqb key (i, Some n, ext t) = false) -> store_streams png t a i k ms key = a key.
Proof.
  induction ms as [|m r IH]; intros a k key N; [ reflexivity |]. rewrite streams_eq, IH by (intros n L; apply N; lia). apply store_other. apply N. lia.
Qed.
Lemma streams_get png t i ms : forall a k n m, nth_error ms n = Some m -> store_streams png t a i k ms (i, Some (k + n)%nat, ext t) = Some (kept png t m).
Proof.
  induction ms as [|x r IH]; intros a k [|n] m E; cbn in E; try discriminate; rewrite streams_eq.
  - assert (x = m) by congruence. subst x. rewrite Nat.add_0_r, streams_before; [ apply store_same |]. intros n L. destruct (key_eqb _ _) eqn:K; [| reflexivity ]. apply key_stream in K. lia.
  - rewrite Nat.add_succ_r, <- Nat.add_succ_l. apply IH. exact E.
Qed.
Lemma map_seq_nth {B} (f : nat -> option B) ms : forall k, (forall j m, nth_error ms j = Some m -> f (k + j)%nat = Some m) -> map f (seq k (length ms)) = map Some ms.
Proof.
  induction ms as [|m r IH]; intros k H; [ reflexivity |]. cbn [length seq map]. f_equal.
  - rewrite <- (H 0%nat m eq_refl). f_equal. lia.
  - apply IH. intros j x E. rewrite <- (H (S j) x E). f_equal. lia.
Qed.
Lemma map_nth_kept (png : nmat -> nmat) t ms : (t = OtherKind \/ Forall (fun m => png m = m) ms) -> forall j m, nth_error ms j = Some m -> kept png t m = m.
Proof.
  intros P j m E. destruct t; try reflexivity. destruct P as [P|P]; [ discriminate |]. cbn. apply nth_error_In in E. rewrite Forall_forall in P. auto.
Qed.
Lemma outputs_back png t n a i ms a' : save_outputs png t n a i ms = Some a' -> t <> ImageKind \/ n = 1%nat -> (t = OtherKind \/ Forall (fun m => png m = m) ms) ->
  load_outputs t n a' i = map Some ms.
Proof.
  unfold save_outputs. destruct (Nat.eqb_spec (length ms) n) as [L|L]; [| discriminate ]. intros E T P. unfold load_outputs. subst n. apply map_seq_nth. intros j m M. cbn [Nat.add].
  destruct ms as [|m0 [|m1 r]].
  - destruct j; discriminate.
  - destruct j as [|j]; [| destruct j; discriminate ]. assert (m0 = m) by (cbn in M; congruence). subst m0.
    assert (Pm : t = OtherKind \/ png m = m) by (destruct P as [P|P]; [ auto | inversion P; auto ]).
    unfold load_output. cbn [length Nat.ltb Nat.leb]. destruct t.
    + replace a' with (store a (i, None, true) (png m)) by congruence. rewrite store_same. f_equal. destruct Pm; [ discriminate | assumption ].
    + replace a' with (store a (i, None, true) (png m)) by congruence. rewrite store_same. f_equal. destruct Pm; [ discriminate | assumption ].
    + replace a' with (store a (i, None, false) m) by congruence. rewrite store_same. reflexivity.
  - set (ms := m0 :: m1 :: r) in *. assert (Lt : Nat.ltb 1 (length ms) = true) by (apply Nat.ltb_lt; cbn; lia). unfold load_output. rewrite Lt.
    replace a' with (store_streams png t a i 0 ms) by congruence.
    pose proof (streams_get png t i ms a 0 j m M) as G. cbn [Nat.add] in G. rewrite (map_nth_kept png t ms P j m M) in G.
    destruct t; cbn [ext] in G; [ | rewrite G; reflexivity | exact G ].
    exfalso. destruct T as [T|T]; [ congruence |]. cbn in T. lia.
Qed.
Lemma outputs_other png t n a i ms a' j : save_outputs png t n a i ms = Some a' -> j <> i -> load_outputs t n a' j = load_outputs t n a j.
Proof.
  intros E N. assert (X : forall s e, a' (j, s, e) = a (j, s, e)).
  { intros s e. unfold save_outputs in E. destruct (Nat.eqb (length ms) n); [| discriminate ].
    assert (K : forall key, fst (fst key) = i -> key_eqb (j, s, e) key = false). { intros key Ki. destruct (key_eqb _ key) eqn:Q; [| reflexivity ]. apply key_index in Q. cbn in Q. congruence. }
    assert (Q : store_streams png t a i 0 ms (j, s, e) = a (j, s, e)) by (apply streams_before; intros; apply K; reflexivity).
    destruct ms as [|m [|m1 r]].
    - replace a' with (store_streams png t a i 0 []) by congruence. exact Q.
    - destruct t; match goal with E : Some ?x = Some a' |- _ => replace a' with x by congruence end; apply store_other; apply K; reflexivity.
    - match goal with E : Some ?x = Some a' |- _ => replace a' with x by congruence end. exact Q. }
  unfold load_outputs. apply map_ext. intro k. unfold load_output. destruct t; rewrite X; reflexivity.
Qed.
(* the last outputs saved for an index come back after any further saving *)
Lemma outputs_last png t n b : forall a i ms a1 a2, save_outputs png t n a i ms = Some a1 -> save_all png t n b a1 = Some a2 -> Forall (fun c => fst c <> i) b ->
  t <> ImageKind \/ n = 1%nat -> (t = OtherKind \/ Forall (fun m => png m = m) ms) -> load_outputs t n a2 i = map Some ms.
Proof.
  intros a i ms a1 a2 E S F T P. pose proof (outputs_back png t n a i ms a1 E T P) as B. clear E a. revert a1 S B. induction F as [|[j mj] b N F IH]; intros a1 S B.
  - cbn in S. congruence.
  - unfold save_all in S. cbn [fold_left fst snd] in S. destruct (save_outputs png t n a1 j mj) as [a3|] eqn:E.
    + apply (IH a3 S). rewrite (outputs_other png t n a1 j mj a3 i E) by (cbn in N; congruence). exact B.
    + exfalso. clear -S. induction b as [|c b IH]; cbn in S; [ discriminate | auto ].
Qed.
Lemma images_lost png n a i ms a' : (1 < n)%nat -> save_outputs png ImageKind n a i ms = Some a' -> load_outputs ImageKind n a' i = load_outputs ImageKind n a i.
Proof.
  intros N E. unfold save_outputs in E. destruct (Nat.eqb_spec (length ms) n) as [L|L]; [| discriminate ].
  assert (E2 : a' = store_streams png ImageKind a i 0 ms) by (destruct ms as [|m [|m1 r]]; cbn in L; [ lia | lia | congruence ]). subst a'.
  unfold load_outputs. apply map_ext. intro k. unfold load_output. rewrite streams_before; [ reflexivity |]. intros j _. destruct (if Nat.ltb 1 n then Some k else None); cbn; rewrite ?andb_false_r; reflexivity.
Qed.
