From Coq Require Import List Bool Arith Lia.
From Verif Require Import Model.GlPipe Spec.GlPipe.
Import ListNotations.

Section Pipe.
Context {X : Type}.
Implicit Types (r : ring X) (s : source X) (c : consumer X).
Lemma set_nth_length n (v : option X) l : n < length l -> length (set_nth n v l) = length l.
Proof. intro L. unfold set_nth. rewrite app_length, firstn_length. cbn [length]. rewrite skipn_length. lia. Qed.
Lemma set_nth_same n (v : option X) l : n < length l -> nth n (set_nth n v l) None = v.
Proof. intro L. unfold set_nth. rewrite app_nth2, firstn_length by (rewrite firstn_length; lia). replace (n - Nat.min n (length l)) with 0 by lia. reflexivity. Qed.
Lemma set_nth_other m n (v : option X) l : n < length l -> m <> n -> nth m (set_nth n v l) None = nth m l None.
Proof.
  revert m n. induction l as [|a l IH]; intros m n L N; [ cbn in L; lia |]. unfold set_nth in *. destruct n as [|n], m as [|m]; cbn [firstn skipn app nth]; try congruence; try reflexivity.
  apply IH; cbn [length] in L; lia.
Qed.
Definition wf layers r : Prop := length (slots r) = layers /\ lay_curr r < layers /\ lay_next r < layers /\ length (bufs r) = 2 /\ buf_next r < 2.
Definition ready r : option X := nth (lay_next r) (slots r) None.
Lemma next_differs layers k : 2 <= layers -> k < layers -> (k + 1) mod layers <> k /\ (k + 1) mod layers < layers.
Proof.
  intros L K. split; [| apply Nat.mod_upper_bound; lia ]. destruct (Nat.eq_dec (k + 1) layers) as [E|N].
  - rewrite E, Nat.mod_same by lia. lia.
  - rewrite Nat.mod_small by lia. lia.
Qed.
Lemma step_ok pbo layers x r : 2 <= layers -> wf layers r ->
  exists r', ring_step pbo layers x r = (r', ready r) /\ wf layers r' /\ (x <> None -> ready r' = x).
Proof.
  intros L (W1 & W2 & W3 & W4 & W5). destruct (next_differs layers (lay_next r) L W3) as [D B].
  assert (Bn : (buf_next r + 1) mod 2 < 2) by (apply Nat.mod_upper_bound; lia).
  unfold ring_step. destruct pbo.
  - eexists. split; [ reflexivity |]. destruct x as [x|].
    + split.
      * unfold wf. cbn [slots lay_curr lay_next bufs buf_next]. rewrite !set_nth_length by lia. auto.
      * intros _. unfold ready. cbn [slots lay_next]. rewrite set_nth_same, set_nth_same by lia. reflexivity.
    + split; [| congruence ]. unfold wf. cbn [slots lay_curr lay_next bufs buf_next]. rewrite !set_nth_length by lia. auto.
  - destruct x as [x|].
    + eexists. split; [ cbn [fst]; rewrite set_nth_other by lia; reflexivity |]. split.
      * unfold wf. cbn [slots lay_curr lay_next bufs buf_next]. rewrite !set_nth_length by lia. auto.
      * intros _. unfold ready. cbn [slots lay_next]. rewrite set_nth_same by lia. reflexivity.
    + eexists. split; [ reflexivity |]. split; [| congruence ]. unfold wf. cbn [slots lay_curr lay_next bufs buf_next]. auto.
Qed.
(** layers of a ring before its first initialisation or after any use *)
Definition placed layers r : Prop := lay_curr r < layers /\ lay_next r < layers /\ buf_next r < 2.
Lemma init_ok layers x r : placed layers r -> wf layers (ring_init layers x r) /\ ready (ring_init layers x r) = x.
Proof.
  intros (P1 & P2 & P3). unfold ring_init, wf, ready. cbn [slots lay_curr lay_next bufs buf_next].
  assert (R : length (repeat (@None X) layers) = layers) by apply repeat_length.
  rewrite set_nth_same by (rewrite set_nth_length; lia). rewrite !set_nth_length by (rewrite ?set_nth_length; lia). repeat split; auto.
Qed.
Lemma wf_placed layers r : wf layers r -> placed layers r.
Proof. intros (W1 & W2 & W3 & W4 & W5). now split. Qed.
Lemma new_placed layers : 2 <= layers -> placed layers (@ring_new X).
Proof. intro L. unfold placed, ring_new. cbn. lia. Qed.

(** the next call will handle packet [p] *)
Definition pending layers s p c : Prop :=
  idx_curr c = p /\ idx_next c = p + 1 /\ wf layers (algo c) /\ ready (algo c) = inputs s p /\
  (evaluating s = true -> wf layers (judge c) /\ ready (judge c) = gts s p) /\
  (showing s = true -> in_curr c = inputs s p) /\ (showing s = true -> evaluating s = true -> gt_curr c = gts s p) /\
  (p + 1 < n_inputs s -> in_next c = inputs s (p + 1)) /\ (p + 1 < n_inputs s -> evaluating s = true -> gt_next c = gts s (p + 1)).
Definition kept layers c : Prop := idx_next c = idx_curr c + 1 /\ placed layers (algo c).
Lemma con_new_kept layers : 2 <= layers -> kept layers (@con_new X).
Proof. intro L. split; [ reflexivity | now apply new_placed ]. Qed.
Lemma con_init_ok layers s c : 2 <= layers -> complete s -> kept layers c -> idx_curr c < n_inputs s ->
  exists c', con_init layers s c = Some c' /\ pending layers s (idx_curr c) c' /\ roi_of c' = idx_curr c.
Proof.
  intros L (N1 & N2 & P) (K1 & K2) I. unfold con_init. rewrite (proj2 (Nat.leb_gt (n_gts s) 1)) by lia.
  destruct (P (idx_curr c) I) as [P1 P2]. destruct (inputs s (idx_curr c)) as [x|] eqn:Ex; [| congruence ].
  destruct (init_ok layers (Some x) (algo c) K2) as [Wa Ra].
  destruct (evaluating s) eqn:Ev.
  - destruct (gts s (idx_curr c)) as [g|] eqn:Eg; [| now destruct P2 ].
    eexists; split; [ reflexivity |]. unfold pending. cbn [idx_curr idx_next algo judge in_curr gt_curr in_next gt_next roi_of].
    destruct (init_ok layers (Some g) (@ring_new X) (new_placed layers L)) as [Wj Rj]. rewrite Ex, Eg, K1. repeat split; auto; lia || (intros; auto).
    all: try apply Wa; try apply Wj.
  - eexists; split; [ reflexivity |]. unfold pending. cbn [idx_curr idx_next algo judge in_curr gt_curr in_next gt_next roi_of].
    rewrite Ex, Ev, K1. repeat split; auto; try discriminate; try apply Wa.
Qed.
Lemma con_apply_ok pbo layers s n p c : 2 <= layers -> complete s -> pending layers s p c ->
  exists c' e, con_apply pbo layers s n c = (c', e) /\ of_packet s (roi_of c) p e /\ roi_of c' = roi_of c /\ kept layers c' /\ idx_curr c' = n /\
    (n < n_inputs s -> pending layers s n c').
Proof.
  intros L (N1 & N2 & P) (Q1 & Q2 & Q3 & Q4 & Q5 & Q6 & Q7 & Q8 & Q9). unfold con_apply.
  set (ni := if n =? idx_next c then in_next c else inputs s n). set (ng := if evaluating s && negb (n =? idx_next c) then gts s n else gt_next c).
  assert (Hi : n < n_inputs s -> ni = inputs s n).
  { intro B. unfold ni. destruct (Nat.eqb_spec n (idx_next c)) as [E|E]; [| reflexivity ]. rewrite E, Q2 in *. auto. }
  assert (Hg : n < n_inputs s -> evaluating s = true -> ng = gts s n).
  { intros B Ev. unfold ng. rewrite Ev. destruct (Nat.eqb_spec n (idx_next c)) as [E|E]; cbn [negb andb]; [| reflexivity ]. rewrite E, Q2 in *. auto. }
  clearbody ni ng. destruct (step_ok pbo layers ni (algo c) L Q3) as (ra & Ea & Wa & Ra). rewrite Ea, Q4.
  assert (J : exists rj v, (if evaluating s then ring_step pbo layers ng (judge c) else (judge c, None)) = (rj, v) /\
    (evaluating s = true -> v = gts s p /\ wf layers rj /\ (ng <> None -> ready rj = ng))).
  { destruct (evaluating s) eqn:Ev.
    - destruct (Q5 eq_refl) as [Wj Rj]. destruct (step_ok pbo layers ng (judge c) L Wj) as (rj & Ej & Wj' & Rj'). exists rj, (ready (judge c)). split; [ exact Ej |]. intros _. auto.
    - exists (judge c), None. split; [ reflexivity | discriminate ]. }
  destruct J as (rj & v & Ej & Hj). rewrite Ej. eexists. eexists. split; [ reflexivity |]. split; [| split; [| split; [| split ]]].
  - unfold of_packet. cbn [e_idx e_in e_gt e_shown_in e_shown_gt e_roi]. split; [ exact Q1 |]. split; [ reflexivity |]. split; [ intro Ev; now apply Hj |].
    split; [ intro Sh; rewrite Sh; auto |]. split; [ intros Sh Ev; rewrite Sh, Ev; cbn [andb]; auto | reflexivity ].
  - reflexivity.
  - split; [ reflexivity | now apply wf_placed ].
  - reflexivity.
  - intro B. destruct (P n B) as [P1 P2]. unfold pending. cbn [idx_curr idx_next algo judge in_curr gt_curr in_next gt_next].
    split; [ reflexivity |]. split; [ reflexivity |]. split; [ exact Wa |]. split; [ rewrite Ra by (rewrite Hi; auto); auto |].
    split. { intro Ev. destruct (Hj Ev) as (_ & Wj & Rj). split; [ exact Wj |]. rewrite Rj by (rewrite Hg; auto). auto. }
    split; [ intro Sh; rewrite Sh; auto |]. split; [ intros Sh Ev; rewrite Sh, Ev; cbn [andb]; auto |].
    split; [ intro B'; rewrite (proj2 (Nat.ltb_lt _ _) B'); reflexivity |].
    intros B' Ev. rewrite (proj2 (Nat.ltb_lt _ _) B'), Ev. reflexivity.
Qed.
Lemma run_ok pbo layers s : 2 <= layers -> complete s -> forall l p c, pending layers s p c -> Forall (fun i => i < n_inputs s) (removelast l) ->
  exists c' es, con_run pbo layers s l c = (c', es) /\ Forall2 (of_packet s (roi_of c)) (removelast (p :: l)) es /\ (l <> [] -> kept layers c' /\ idx_curr c' = last l 0).
Proof.
  intros L Cs. induction l as [|n l IH]; intros p c Pd F.
  - exists c, []. split; [ reflexivity |]. split; [ constructor | congruence ].
  - destruct (con_apply_ok pbo layers s n p c L Cs Pd) as (c1 & e & E1 & O & Rq & Kp & Ic & Nx). cbn [con_run]. rewrite E1.
    destruct l as [|m l].
    + cbn [con_run]. exists c1, [e]. split; [ reflexivity |]. split; [ constructor; [ exact O | constructor ] | auto ].
    + change (removelast (n :: m :: l)) with (n :: removelast (m :: l)) in F. apply Forall_cons_iff in F as [Fn F].
      destruct (IH n c1 (Nx Fn) F) as (c2 & es & E2 & O2 & K2). rewrite E2. exists c2, (e :: es). split; [ reflexivity |]. rewrite Rq in O2. split.
      * change (removelast (p :: n :: m :: l)) with (p :: removelast (n :: m :: l)). now constructor.
      * intros _. apply K2. discriminate.
Qed.
Theorem first_run pbo layers s l : 2 <= layers -> complete s -> Forall (fun i => i < n_inputs s) (removelast l) ->
  exists c c' es, con_init layers s con_new = Some c /\ con_run pbo layers s l c = (c', es) /\ Forall2 (of_packet s 0) (removelast (0 :: l)) es.
Proof.
  intros L Cs F. destruct (con_init_ok layers s con_new L Cs (con_new_kept layers L)) as (c & E & Pd & Rq). { cbn. destruct Cs. lia. }
  destruct (run_ok pbo layers s L Cs l 0 c Pd F) as (c' & es & E' & O & _). rewrite Rq in O. exists c, c', es. auto.
Qed.
Lemma removelast_snoc {A} (l : list A) x : removelast (l ++ [x]) = l.
Proof. rewrite removelast_app by discriminate. cbn [removelast]. apply app_nil_r. Qed.
(** the loop of apps/changedet/src/main.cpp:191-197 *)
Theorem loop pbo layers s : 2 <= layers -> complete s ->
  exists c c' es, con_init layers s con_new = Some c /\ con_run pbo layers s (seq 1 (n_inputs s)) c = (c', es) /\ Forall2 (of_packet s 0) (seq 0 (n_inputs s)) es.
Proof.
  intros L Cs. pose proof Cs as (N1 & _). destruct (n_inputs s) as [|n] eqn:En; [ lia |].
  assert (E : seq 1 (S n) = seq 1 n ++ [S n]) by (rewrite seq_S; reflexivity).
  destruct (first_run pbo layers s (seq 1 (S n)) L Cs) as (c & c' & es & H1 & H2 & H3).
  { rewrite E, removelast_snoc. apply Forall_forall. intros i I. apply in_seq in I. lia. }
  exists c, c', es. split; [ exact H1 |]. split; [ exact H2 |]. rewrite E, app_comm_cons, removelast_snoc in H3. exact H3.
Qed.
(** a second initialisation resumes where the calls stopped *)
Theorem resume pbo layers s l l' : 2 <= layers -> complete s -> l <> [] -> Forall (fun i => i < n_inputs s) l -> Forall (fun i => i < n_inputs s) (removelast l') ->
  exists c c1 es1 c2 c3 es2, con_init layers s con_new = Some c /\ con_run pbo layers s l c = (c1, es1) /\ con_init layers s c1 = Some c2 /\
    con_run pbo layers s l' c2 = (c3, es2) /\ Forall2 (of_packet s (last l 0)) (removelast (last l 0 :: l')) es2.
Proof.
  intros L Cs Nl F F'. destruct (con_init_ok layers s con_new L Cs (con_new_kept layers L)) as (c & E & Pd & Rq). { cbn. destruct Cs. lia. }
  assert (Fl : Forall (fun i => i < n_inputs s) (removelast l)).
  { rewrite (app_removelast_last 0 Nl) in F. apply Forall_app in F. tauto. }
  destruct (run_ok pbo layers s L Cs l 0 c Pd Fl) as (c1 & es1 & E1 & _ & K). destruct (K Nl) as [K1 K2].
  assert (In_last : last l 0 < n_inputs s). { rewrite (app_removelast_last 0 Nl) in F. apply Forall_app in F as [_ F]. apply Forall_cons_iff in F. tauto. }
  destruct (con_init_ok layers s c1 L Cs K1) as (c2 & E2 & Pd2 & Rq2). { now rewrite K2. }
  destruct (run_ok pbo layers s L Cs l' (idx_curr c1) c2 Pd2 F') as (c3 & es2 & E3 & O3 & _). rewrite Rq2, K2 in O3.
  exists c, c1, es1, c2, c3, es2. auto 10.
Qed.
(** ... and fails once all packets were handled *)
Theorem rerun_fails pbo layers s : 2 <= layers -> complete s -> (forall i, n_inputs s <= i -> inputs s i = None) ->
  exists c c' es, con_init layers s con_new = Some c /\ con_run pbo layers s (seq 1 (n_inputs s)) c = (c', es) /\ con_init layers s c' = None.
Proof.
  intros L Cs En. pose proof Cs as (N1 & _). destruct (con_init_ok layers s con_new L Cs (con_new_kept layers L)) as (c & E & Pd & Rq). { cbn. lia. }
  assert (El : seq 1 (n_inputs s) = seq 1 (n_inputs s - 1) ++ [n_inputs s]). { replace (n_inputs s) with (S (n_inputs s - 1)) at 1 by lia. rewrite seq_S. do 2 f_equal. lia. }
  destruct (run_ok pbo layers s L Cs (seq 1 (n_inputs s)) 0 c Pd) as (c' & es & E' & _ & K).
  { rewrite El, removelast_snoc. apply Forall_forall. intros i I. apply in_seq in I. lia. }
  exists c, c', es. split; [ exact E |]. split; [ exact E' |].
  assert (Hn : seq 1 (n_inputs s) <> []) by (destruct (n_inputs s); [ lia | discriminate ]). destruct (K Hn) as [_ K2].
  rewrite El, last_last in K2. unfold con_init. destruct (n_gts s <=? 1); [ reflexivity |]. now rewrite K2, En.
Qed.
End Pipe.
