(** Proofs for the asynchronous writer: the map, the invariant of one worker, conservation, order, progress. *)
From Coq Require Import ZArith List Bool Lia Permutation.
From Verif Require Import Model.Writer Spec.Writer.
Import ListNotations.
Open Scope Z_scope.

Definition keys (q : list node) : list Z := map key q.
Definition ids (q : list node) : list Z := map id q.
Definition pairs (q : list node) : list (Z * list Z) := map (fun n => (key n, data n)) q.

Lemma increasing_app l m : increasing (l ++ m) <-> increasing l /\ increasing m /\ Forall (fun a => Forall (Z.lt a) m) l.
Proof.
  induction l as [|a l IH]; cbn [app increasing]. { split; [ intro H; split; [ exact I | split; [ exact H | constructor ] ] | tauto ]. }
  rewrite IH, Forall_app. split.
  - intros ((A & B) & C & D & E). split; [ auto |]. split; [ auto |]. constructor; auto.
  - intros ((A & C) & D & E). inversion E; subst. auto.
Qed.
Lemma increasing_bound l : increasing l -> forall a b, Forall (fun x => a <= x < b) l -> Z.of_nat (length l) <= Z.max 0 (b - a).
Proof.
  induction l as [|x l IH]; intros H a b F; [ cbn; lia |]. cbn [increasing] in H. destruct H as (H1 & H2). inversion F; subst. cbn [length].
  assert (G : Forall (fun y => x + 1 <= y < b) l). { rewrite Forall_forall in *. intros y Y. specialize (H1 y Y). specialize (H4 y Y). lia. }
  specialize (IH H2 _ _ G). lia.
Qed.
Lemma total_app l m : total (l ++ m) = total l + total m.
Proof. induction l as [|[i d] l IH]; cbn [app total]; lia. Qed.
Lemma total_nonneg l : 0 <= total l.
Proof. induction l as [|[i d] l IH]; cbn [total]; lia. Qed.
Lemma u64_small v : 0 <= v < W64 -> u64 v = v.
Proof. intro. unfold u64. apply Z.mod_small. lia. Qed.
Lemma u64_minus a b : 0 <= a - b < W64 -> u64 (u64 a - b) = a - b.
Proof. intro H. unfold u64. rewrite Zminus_mod_idemp_l. apply Z.mod_small. exact H. Qed.

(** ** the map *)
Lemma put_spec q i f l : increasing (keys q) ->
  exists q1 q2, Forall (fun n => key n < i) q1 /\ Forall (fun n => i < key n) q2 /\
    ((find q i = None /\ q = q1 ++ q2 /\ put q i f l = q1 ++ Node i f l :: q2) \/
     (exists n, find q i = Some n /\ key n = i /\ q = q1 ++ n :: q2 /\ put q i f l = q1 ++ Node i (id n) l :: q2)).
Proof.
  induction q as [|n q IH]; intro H. { exists [], []. split; [ constructor |]. split; [ constructor |]. left. auto. }
  cbn [keys map increasing] in H. destruct H as (H1 & H2). cbn [find put].
  destruct (Z.ltb_spec i (key n)) as [L|L].
  - exists [], (n :: q). split; [ constructor |]. split. { constructor; [ exact L |]. rewrite Forall_forall in *. intros m M. specialize (H1 (key m) (in_map key _ _ M)). lia. }
    left. split; [| auto ]. replace (key n =? i) with false by (symmetry; apply Z.eqb_neq; lia). clear IH H2. induction q as [|m q IH]; [ reflexivity |]. cbn [find]. inversion H1; subst.
    replace (key m =? i) with false by (symmetry; apply Z.eqb_neq; lia). auto.
  - rewrite (Z.eqb_sym i (key n)). destruct (Z.eqb_spec (key n) i) as [E|E].
    + exists [], q. split; [ constructor |]. split. { rewrite Forall_forall in *. intros m M. specialize (H1 (key m) (in_map key _ _ M)). lia. } right. exists n. auto.
    + destruct (IH H2) as (q1 & q2 & A & B & C). exists (n :: q1), q2. split; [ constructor; [ lia | exact A ] |]. split; [ exact B |].
      destruct C as [(C1 & C2 & C3) | (m & C1 & C2 & C3 & C4)].
      * left. split; [ exact C1 |]. rewrite C3. cbn [app]. split; congruence.
      * right. exists m. split; [ exact C1 |]. split; [ exact C2 |]. rewrite C4. cbn [app]. split; congruence.
Qed.
Lemma position_app q1 n q2 : Forall (fun m => key m < key n) q1 -> position (q1 ++ n :: q2) (key n) = Z.of_nat (length q1).
Proof.
  induction q1 as [|m q1 IH]; intro F; cbn [app position length]. { now rewrite Z.eqb_refl. }
  inversion F; subst. replace (key m =? key n) with false by (symmetry; apply Z.eqb_neq; lia). rewrite IH by assumption. lia.
Qed.
Lemma at_id_spec q a : match at_id q a with
  | None => ~ In a (ids q) /\ erase q a = None
  | Some n => exists q1 q2, q = q1 ++ n :: q2 /\ id n = a /\ erase q a = Some (q1 ++ q2) /\ ~ In a (ids q1) end.
Proof.
  induction q as [|n q IH]; cbn [at_id erase ids map]; [ auto |]. destruct (Z.eqb_spec (id n) a) as [E|E].
  - exists [], q. auto.
  - destruct (at_id q a) as [m|].
    + destruct IH as (q1 & q2 & A & B & C & D). rewrite C. exists (n :: q1), q2. split; [ cbn [app]; congruence |]. split; [ exact B |]. split; [ reflexivity |]. cbn [map In]. intros [F|F]; tauto.
    + destruct IH as (A & B). rewrite B. split; [| reflexivity ]. cbn [In]. intros [F|F]; tauto.
Qed.
Lemma at_id_app q1 n q2 : ~ In (id n) (ids q1) -> at_id (q1 ++ n :: q2) (id n) = Some n.
Proof. induction q1 as [|m q1 IH]; intro H; cbn [app at_id]. { now rewrite Z.eqb_refl. } cbn [ids map In] in H. destruct (Z.eqb_spec (id m) (id n)); [ tauto |]. apply IH. tauto. Qed.
Lemma at_id_In q n : NoDup (ids q) -> In n q -> at_id q (id n) = Some n.
Proof.
  intros N I. apply in_split in I. destruct I as (q1 & q2 & ->). apply at_id_app. unfold ids in N. rewrite map_app in N. cbn [map] in N. apply NoDup_remove_2 in N. intro C. apply N. apply in_or_app. now left.
Qed.
Lemma pairs_app a b : pairs (a ++ b) = pairs a ++ pairs b.
Proof. apply map_app. Qed.

(** ** the trace *)
Ltac walk o := induction o as [|x o IH]; intros; [ reflexivity | destruct x; cbn [app accepted written begun replaced settled lost failed rethrown]; rewrite ?IH; try reflexivity ].
Lemma accepted_app a b : accepted (a ++ b) = accepted a ++ accepted b. Proof. walk a. Qed.
Lemma written_app a b : written (a ++ b) = written a ++ written b. Proof. walk a. Qed.
Lemma begun_app a b : begun (a ++ b) = begun a ++ begun b. Proof. walk a. Qed.
Lemma replaced_app a b : replaced (a ++ b) = replaced a ++ replaced b. Proof. walk a. Qed.
Lemma settled_app a b : settled (a ++ b) = settled a ++ settled b. Proof. walk a. Qed.
Lemma lost_app a b : lost (a ++ b) = lost a ++ lost b. Proof. walk a. Qed.
Lemma failed_app a b : failed (a ++ b) = failed a ++ failed b. Proof. walk a. destruct ok; cbn [app]; rewrite ?IH; reflexivity. Qed.
Lemma rethrown_app a b : rethrown (a ++ b) = rethrown a ++ rethrown b. Proof. walk a. Qed.
Lemma no_race_app a b : no_race (a ++ b) <-> no_race a /\ no_race b.
Proof. unfold no_race. split. - intro H. split; intros i I; apply (H i), in_or_app; auto. - intros (A & B) i I. apply in_app_or in I. destruct I as [I|I]; [ now apply (A i) | now apply (B i) ]. Qed.
Lemma lost_map l : accepted (map (fun m => Lost (key m) (data m)) l) = [] /\ written (map (fun m => Lost (key m) (data m)) l) = [] /\ begun (map (fun m => Lost (key m) (data m)) l) = [] /\
  replaced (map (fun m => Lost (key m) (data m)) l) = [] /\ settled (map (fun m => Lost (key m) (data m)) l) = pairs l /\ lost (map (fun m => Lost (key m) (data m)) l) = pairs l.
Proof. induction l as [|n l (A & B & C & D & E & F)]; cbn [map accepted written begun replaced settled lost pairs]; [ tauto |]. unfold pairs in *. rewrite E, F. tauto. Qed.
Section S.
Variables cmin cmax : Z.
Notation stp := (step cmin cmax).
Notation rn := (run cmin cmax).
Lemma run_app s a b : rn s (a ++ b) = let '(s1, o1) := rn s a in let '(s2, o2) := rn s1 b in (s2, o1 ++ o2).
Proof.
  revert s. induction a as [|x a IH]; intro s; cbn [app run]. { now destruct (rn s b). }
  destruct (stp s x) as (s1 & o1). rewrite IH. destruct (rn s1 a) as (s2 & o2). destruct (rn s2 b) as (s3 & o3). now rewrite app_assoc.
Qed.

(** ** the invariant of one worker *)
Definition one (w : list wpc) : Prop := w = [] \/ exists x, w = [x].
Definition reading (s : st) : Prop := match workers s with [Writing a i sz] => exists n, In n (q s) /\ id n = a /\ key n = i /\ len (data n) = sz | _ => True end.
Record inv (s : st) : Prop := Inv {
  i_bad : bad s = false; i_hung : hung s = false;
  i_sorted : increasing (keys (q s)); i_keys : Forall (fun k => 0 <= k < W64 - 1) (keys (q s));
  i_ids : NoDup (ids (q s)); i_fresh : Forall (fun a => a < fresh s) (ids (q s));
  i_size : qsize s = total (queued s); i_cnt : cnt s = Z.of_nat (length (q s)); i_max : total (queued s) <= maxs s; i_maxs : maxs s <= cmax;
  i_calls : Forall (fun c => 0 <= c_idx c < W64 - 1 /\ len (c_data c) <= cmax) (calls s);
  i_one : one (workers s); i_reading : reading s;
  i_alive : active s = true -> exists x, workers s = [x] /\ x <> Gone;
  i_ctrl : ctrl s <> Free -> active s = false; i_free : active s = false -> ctrl s = Free -> forallb gone (workers s) = true;
  i_pend : match ctrl s with Joining (Some (_, _, w)) => w = 1%nat | _ => True end }.
(** what the worker is writing *)
Definition current (s : st) : list (Z * list Z) := match workers s with [Writing a i _] => match at_id (q s) a with Some n => [(i, data n)] | None => [] end | _ => [] end.

Lemma inv_init : 0 <= cmax -> inv init.
Proof. intro. constructor; cbn; auto; try lia; try constructor; try congruence. Qed.

Definition ok_act (a : act) : Prop := match a with Call i _ => 0 <= i < W64 - 1 | Start _ _ w => w = 1%nat | _ => True end.
(** the step of the ledgers *)
Definition moves (s : st) (o : list obs) (s' : st) : Prop :=
  inv s' /\ Permutation (queued s ++ accepted o) (replaced o ++ settled o ++ queued s') /\ current s ++ begun o = written o ++ current s'.
Lemma moves_same s s' : inv s' -> q s' = q s -> current s' = current s -> moves s [] s'.
Proof. intros I Q C. split; [ exact I |]. unfold queued. rewrite Q, C. cbn. rewrite !app_nil_r. auto. Qed.

Lemma set_one {A} (x y : A) : set [x] 0 y = [y]. Proof. reflexivity. Qed.
Lemma nth_one {A} (w : list A) k x : (w = [] \/ exists y, w = [y]) -> nth_error w k = Some x -> w = [x] /\ k = 0%nat.
Proof. intros [->|(y & ->)] H; destruct k; cbn in H; try discriminate; [ injection H as ->; auto | destruct k; discriminate ]. Qed.
Lemma Forall_remove {A} (P : A -> Prop) l k : Forall P l -> Forall P (remove l k).
Proof. intro F. unfold remove. rewrite <- (firstn_skipn k l), Forall_app in F. destruct F as (A1 & A2). apply Forall_app. split; [ exact A1 |]. destruct (skipn k l); [ constructor | now inversion A2 ]. Qed.
Lemma Forall_set {A} (P : A -> Prop) l k x : Forall P l -> P x -> Forall P (set l k x).
Proof. intros F X. unfold set. rewrite <- (firstn_skipn k l), Forall_app in F. destruct F as (A1 & A2). apply Forall_app. split; [ exact A1 |]. destruct (skipn k l); [ constructor | inversion A2; subst; now constructor ]. Qed.
Lemma pairs_others q1 n q2 : Forall (fun m => key m < key n) q1 -> Forall (fun m => key n < key m) q2 -> others (key n) (pairs (q1 ++ n :: q2)) = pairs (q1 ++ q2).
Proof.
  intros A B. unfold others. rewrite !pairs_app. cbn [pairs map]. rewrite filter_app. cbn [filter fst]. rewrite Z.eqb_refl. cbn [negb].
  assert (G : forall r, Forall (fun m => key m <> key n) r -> filter (fun p => negb (fst p =? key n)) (pairs r) = pairs r).
  { induction r as [|m r IH]; intro F; [ reflexivity |]. inversion F; subst. cbn [pairs map filter fst]. replace (key m =? key n) with false by (symmetry; now apply Z.eqb_neq). cbn [negb]. unfold pairs in IH. now rewrite IH. }
  rewrite !G; [ reflexivity | |]; (eapply Forall_impl; [| eassumption ]; cbn; intros; lia).
Qed.
Lemma others_none q i : find q i = None -> others i (pairs q) = pairs q.
Proof. induction q as [|m q IH]; intro F; [ reflexivity |]. cbn [find] in F. destruct (Z.eqb_spec (key m) i) as [E|E]; [ discriminate |]. cbn [pairs map others filter fst]. replace (key m =? i) with false by (symmetry; now apply Z.eqb_neq). cbn [negb]. f_equal. now apply IH. Qed.

Hypothesis HS : setting cmin cmax.
Lemma size_with_spec s i l : inv s -> 0 <= len l <= cmax -> size_with s i l = total (others i (queued s)) + len l.
Proof.
  intros V L. destruct HS as (S1 & S2 & S3). unfold size_with. rewrite (i_size s V). pose proof (i_max s V) as M. pose proof (i_maxs s V) as M2.
  change (queued s) with (pairs (q s)) in *. destruct (put_spec (q s) i 0 l (i_sorted s V)) as (q1 & q2 & A & B & [(F & E & _) | (n & F & K & E & _)]); rewrite F.
  - pose proof (total_nonneg (pairs (q s))). rewrite (others_none _ _ F), u64_minus; unfold W64; lia.
  - rewrite E, <- K, pairs_others by (rewrite ?K; assumption). rewrite E in M. rewrite !pairs_app in *. cbn [pairs map] in M |- *. rewrite !total_app in *. cbn [total] in *. fold (pairs q2) in *.
    pose proof (total_nonneg (pairs q1)). pose proof (total_nonneg (pairs q2)). unfold len in *. rewrite u64_minus; unfold W64; lia.
Qed.
Lemma wake_one_one x n : wake_one [x] n = [wake x].
Proof. unfold wake_one. destruct n as [|[|n]]; cbn; destruct x; reflexivity. Qed.

Lemma pairs_ids_in n q : In n q -> In (id n) (ids q). Proof. intro. now apply in_map. Qed.
Lemma enter_moves s k m c : inv s -> nth_error (calls s) k = Some c -> no_race (snd (enter s k m c)) -> moves s (snd (enter s k m c)) (fst (enter s k m c)).
Proof.
  intros V N R. assert (IC : In c (calls s)) by (eapply nth_error_In; eassumption). pose proof (i_calls s V) as CC. rewrite Forall_forall in CC. destruct (CC c IC) as (C1 & C2). clear CC IC.
  unfold enter in *. set (i := c_idx c) in *. set (l := c_data c) in *. assert (L0 : 0 <= len l) by (unfold len; lia). rewrite (size_with_spec s i l V (conj L0 C2)) in *.
  destruct (Z.leb_spec (total (others i (queued s)) + len l) (maxs s)) as [Fit|Fit].
  2: { destruct (drop s); cbn [fst snd].
       - unfold moves. cbn. rewrite !app_nil_r. split; [| split; [ apply Permutation_refl | reflexivity ]]. destruct V. constructor; cbn; auto. now apply Forall_remove.
       - apply moves_same; [| reflexivity | reflexivity ]. destruct V. constructor; cbn; auto. apply Forall_set; [ assumption |]. cbn. auto. }
  assert (W : wake_one (workers s) m = map wake (workers s)). { destruct (i_one s V) as [E|(x & E)]; rewrite E; [ destruct m; reflexivity | apply wake_one_one ]. }
  rewrite W. clear W.
  assert (WW : one (map wake (workers s)) /\ (active s = true -> exists x, map wake (workers s) = [x] /\ x <> Gone) /\ (active s = false -> ctrl s = Free -> forallb gone (map wake (workers s)) = true)).
  { pose proof (i_one s V) as O1. pose proof (i_alive s V) as O2. pose proof (i_free s V) as O3. destruct O1 as [E|(x & E)]; rewrite E in *; cbn [map].
    - split; [ left; reflexivity |]. split; [| auto ]. intro A. destruct (O2 A) as (x & X & _). discriminate.
    - split; [ right; eexists; reflexivity |]. split. + intro A. destruct (O2 A) as (y & Y & Y2). injection Y as ->. exists (wake y). split; [ reflexivity |]. destruct y; cbn; congruence. + intros A B. specialize (O3 A B). destruct x; cbn in *; auto. }
  destruct WW as (W1 & W2 & W3).
  destruct (put_spec (q s) i (fresh s) l (i_sorted s V)) as (q1 & q2 & A & B & D).
  assert (KB : forall n, key n = i -> increasing (keys (q1 ++ q2)) -> increasing (keys (q1 ++ n :: q2))).
  { intros n E H. unfold keys in *. rewrite map_app in *. cbn [map]. rewrite increasing_app in *. destruct H as (H1 & H2 & H3). split; [ exact H1 |]. rewrite E. split.
    - cbn [increasing]. split; [| exact H2 ]. rewrite Forall_forall in *. intros x X. apply in_map_iff in X. destruct X as (y & <- & Y). now apply B.
    - rewrite Forall_forall in *. intros x X. constructor; [| now apply H3 ]. apply in_map_iff in X. destruct X as (y & <- & Y). now apply A. }
  assert (KR : Forall (fun k => 0 <= k < W64 - 1) (keys (q s))) by apply (i_keys s V).
  destruct D as [(F & E & P) | (n & F & K & E & P)].
  - (* a new packet *)
    rewrite F in *. rewrite P. cbn [fst snd app]. rewrite (others_none _ _ F : others i (queued s) = queued s) in *. unfold moves.
    assert (SZ : total (pairs (q1 ++ Node i (fresh s) l :: q2)) = total (queued s) + len l).
    { change (queued s) with (pairs (q s)). rewrite E, !pairs_app. cbn [pairs map key data]. rewrite !total_app. cbn [total]. fold (pairs q2). unfold len. lia. }
    assert (NI : ~ In (fresh s) (ids (q s))). { pose proof (i_fresh s V) as FR. rewrite Forall_forall in FR. intro X. specialize (FR _ X). lia. }
    split.
    + assert (S' : increasing (keys (q1 ++ Node i (fresh s) l :: q2))). { apply KB; [ reflexivity |]. rewrite <- E. apply (i_sorted s V). }
      assert (K' : Forall (fun k => 0 <= k < W64 - 1) (keys (q1 ++ Node i (fresh s) l :: q2))).
      { rewrite E in KR. unfold keys in *. rewrite map_app in *. rewrite Forall_app in *. cbn [map key]. destruct KR. split; [ assumption |]. constructor; [ exact C1 | assumption ]. }
      destruct V; constructor; cbn [bad hung q qsize cnt maxs fresh workers calls exc ctrl active drop queued]; auto.
      * unfold ids in *. rewrite map_app. cbn [map id]. rewrite E in i_ids0, NI. rewrite map_app in *. apply NoDup_Add with (l := map id q1 ++ map id q2) (a := fresh s); [ apply Add_app | auto ].
      * rewrite E in i_fresh0. unfold ids in *. rewrite map_app in *. cbn [map id]. rewrite Forall_app in *. destruct i_fresh0 as (G1 & G2). split; [| constructor; [ lia |] ]; (eapply Forall_impl; [| eassumption ]; cbn; intros; lia).
      * rewrite i_cnt0. pose proof (increasing_bound _ S' _ _ K') as LB. unfold keys in LB. rewrite map_length in LB. rewrite E. rewrite !app_length in *. cbn [length] in *. rewrite u64_small; unfold W64 in *; lia.
      * unfold queued. cbn [q]. fold (pairs (q1 ++ Node i (fresh s) l :: q2)). rewrite SZ. exact Fit.
      * now apply Forall_remove.
      * unfold reading in *. cbn [workers q]. destruct i_one0 as [Z0|(x & Z0)]; rewrite Z0 in *; cbn [map]; [ exact I |]. destruct x; cbn [wake] in *; auto.
        destruct i_reading0 as (nn & X1 & X2). exists nn. split; [| exact X2 ]. rewrite E in X1. apply in_or_app. apply in_app_or in X1. cbn [In]. tauto.
    + split.
      * cbn [accepted replaced settled app]. unfold queued. cbn [q]. fold (pairs (q s)). fold (pairs (q1 ++ Node i (fresh s) l :: q2)). rewrite E, !pairs_app. cbn [pairs map key data]. fold (pairs q2).
        rewrite <- app_assoc. apply Permutation_app_head. apply Permutation_sym, Permutation_cons_append.
      * cbn [begun written app]. rewrite app_nil_r. unfold current. cbn [workers q]. destruct (i_one s V) as [Z0|(x & Z0)]; rewrite Z0; cbn [map]; [ reflexivity |].
        destruct x; cbn [wake]; try reflexivity. pose proof (i_reading s V) as RD. unfold reading in RD. rewrite Z0 in RD. destruct RD as (nn & X1 & X2 & X3 & X4). subst a.
        rewrite (at_id_In _ _ (i_ids s V) X1).
        assert (N' : NoDup (ids (q1 ++ Node i (fresh s) l :: q2))). { pose proof (i_ids s V) as ND. unfold ids in *. rewrite map_app. cbn [map id]. rewrite E in ND, NI. rewrite map_app in *. apply NoDup_Add with (l := map id q1 ++ map id q2) (a := fresh s); [ apply Add_app | auto ]. }
        assert (X1' : In nn (q1 ++ Node i (fresh s) l :: q2)). { rewrite E in X1. apply in_or_app. apply in_app_or in X1. cbn [In]. tauto. }
        now rewrite (at_id_In _ _ N' X1').
  - (* the packet of that index is replaced *)
    rewrite F in *. rewrite P. cbn [fst snd app]. set (w' := map wake (workers s)) in *.
    assert (NR : existsb (reads (id n)) (workers s) = false).
    { destruct (existsb (reads (id n)) (workers s)); [| reflexivity ]. exfalso. apply (R i). cbn. now left. }
    rewrite NR. cbn [app]. unfold moves.
    assert (O : others i (queued s) = pairs (q1 ++ q2)). { change (queued s) with (pairs (q s)). rewrite E, <- K. apply pairs_others; now rewrite K. }
    assert (SZ : total (pairs (q1 ++ Node i (id n) l :: q2)) = total (others i (queued s)) + len l).
    { rewrite O, !pairs_app. cbn [pairs map key data]. rewrite !total_app. cbn [total]. fold (pairs q2). unfold len. lia. }
    assert (IDS : ids (q1 ++ Node i (id n) l :: q2) = ids (q s)). { rewrite E. unfold ids. now rewrite !map_app. }
    assert (KS : keys (q1 ++ Node i (id n) l :: q2) = keys (q s)). { rewrite E. unfold keys. rewrite !map_app. cbn [map key]. now rewrite K. }
    assert (RDG : forall x a j sz, workers s = [x] -> x = Writing a j sz -> exists nn, In nn (q s) /\ In nn (q1 ++ Node i (id n) l :: q2) /\ id nn = a /\ key nn = j /\ len (data nn) = sz).
    { intros x a j sz Z0 ->. pose proof (i_reading s V) as RD. unfold reading in RD. rewrite Z0 in RD. destruct RD as (nn & X1 & X2 & X3 & X4). exists nn. split; [ exact X1 |]. split; [| auto ].
      rewrite Z0 in NR. cbn [existsb reads orb] in NR. rewrite orb_false_r in NR. apply Z.eqb_neq in NR. rewrite E in X1. apply in_or_app. apply in_app_or in X1. cbn [In] in *. destruct X1 as [X1|[X1|X1]]; [ auto | | auto ]. subst nn. congruence. }
    split.
    + destruct V; constructor; cbn [bad hung q qsize cnt maxs fresh workers calls exc ctrl active drop queued]; auto.
      * now rewrite KS.
      * now rewrite KS.
      * now rewrite IDS.
      * rewrite IDS. eapply Forall_impl; [| exact i_fresh0 ]. cbn. intros. lia.
      * rewrite i_cnt0, E, !app_length. reflexivity.
      * unfold queued. cbn [q]. fold (pairs (q1 ++ Node i (id n) l :: q2)). rewrite SZ. exact Fit.
      * now apply Forall_remove.
      * unfold reading in *. cbn [workers q]. subst w'. destruct i_one0 as [Z0|(x & Z0)]; rewrite Z0 in *; cbn [map]; [ exact I |]. destruct x; cbn [wake] in *; auto.
        destruct (RDG _ _ _ _ eq_refl eq_refl) as (nn & _ & Y). exists nn. exact Y.
    + split.
      * cbn [accepted replaced settled app]. unfold queued. cbn [q]. fold (pairs (q s)). fold (pairs (q1 ++ Node i (id n) l :: q2)). rewrite E, !pairs_app. cbn [pairs map key data]. fold (pairs q2). rewrite K.
        rewrite <- app_assoc. cbn [app]. apply Permutation_trans with ((i, data n) :: pairs q1 ++ pairs q2 ++ [(i, l)]). { apply Permutation_sym, Permutation_middle. }
        constructor. apply Permutation_app_head. apply Permutation_sym, Permutation_cons_append.
      * cbn [begun written app]. rewrite app_nil_r. unfold current. cbn [workers q]. subst w'. destruct (i_one s V) as [Z0|(x & Z0)]; rewrite Z0 in *; cbn [map]; [ reflexivity |].
        destruct x; cbn [wake]; try reflexivity. destruct (RDG _ _ _ _ eq_refl eq_refl) as (nn & X1 & X2 & X3 & _). subst a. rewrite (at_id_In _ _ (i_ids s V) X1). rewrite (at_id_In (q1 ++ Node i (id n) l :: q2) nn); [ reflexivity | rewrite IDS; apply (i_ids s V) | exact X2 ].
Qed.

Lemma spawn_moves s n d : inv s -> active s = false -> forallb gone (workers s) = true -> moves s (snd (spawn cmin cmax s n d 1)) (fst (spawn cmin cmax s n d 1)).
Proof.
  intros V A G. unfold spawn. destruct (Z.ltb_spec 0 n) as [N|N]; cbn [fst snd].
  - destruct (lost_map (q s)) as (L1 & L2 & L3 & L4 & L5 & L6). destruct HS as (S1 & S2 & S3). unfold moves. split.
    + destruct V. constructor; cbn; auto; try lia; try (solve [constructor]); try discriminate; try congruence.
      * right. eexists. reflexivity.
      * intros _. eexists. split; [ reflexivity | discriminate ].
    + rewrite L1, L2, L3, L4, L5. split; [ cbn; rewrite !app_nil_r; apply Permutation_refl |]. unfold current. cbn. rewrite app_nil_r.
      destruct (workers s) as [|[| |a i z|] [|? ?]]; try reflexivity. discriminate.
  - apply moves_same; [| reflexivity | reflexivity ]. destruct V; constructor; cbn; auto; congruence.
Qed.
Lemma after_stop_moves s c : inv s -> active s = false -> forallb gone (workers s) = true -> match c with Some (_, _, w) => w = 1%nat | None => True end -> moves s (snd (after_stop cmin cmax s c)) (fst (after_stop cmin cmax s c)).
Proof.
  intros V A G W. unfold after_stop. destruct (exc s) as [|e r].
  - destruct c as [[[n d] w]|]. { subst w. now apply spawn_moves. } unfold moves. cbn. rewrite !app_nil_r. split; [| split; [ apply Permutation_refl | reflexivity ]]. destruct V; constructor; cbn; auto; congruence.
  - unfold moves. cbn. rewrite !app_nil_r. split; [| split; [ apply Permutation_refl | reflexivity ]]. destruct V; constructor; cbn; auto; congruence.
Qed.
Lemma stop_moves s c : inv s -> ctrl s = Free -> match c with Some (_, _, w) => w = 1%nat | None => True end -> moves s (snd (stop cmin cmax s c)) (fst (stop cmin cmax s c)).
Proof.
  intros V F W. unfold stop. rewrite (i_hung s V). destruct (active s) eqn:A.
  - cbn [fst snd]. pose proof (i_alive s V A) as (x & X & X2). apply moves_same; cbn [q]; [| reflexivity |].
    + destruct V. constructor; cbn; auto.
      * rewrite X. right. eexists. reflexivity.
      * unfold reading in *. cbn [workers q]. rewrite X in *. cbn [map]. destruct x; cbn [wake]; auto.
      * discriminate.
      * discriminate.
    + unfold current. cbn [workers q]. rewrite X. cbn [map]. destruct x; reflexivity.
  - apply after_stop_moves; auto. now apply (i_free s V).
Qed.
Lemma q_head s : inv s -> 0 < cnt s -> exists n r, q s = n :: r /\ len (data n) <= qsize s.
Proof.
  intros V C. rewrite (i_cnt s V) in C. rewrite (i_size s V). unfold queued. destruct (q s) as [|n r]; [ cbn in C; lia |]. exists n, r. split; [ reflexivity |]. cbn [map total]. pose proof (total_nonneg (map (fun m => (key m, data m)) r)). unfold len. lia.
Qed.
Lemma work_moves s k : inv s -> nth_error (workers s) k = Some Ready -> moves s (snd (work s k)) (fst (work s k)).
Proof.
  intros V N. destruct (nth_one _ _ _ (i_one s V) N) as (W & ->). unfold work. rewrite W, !set_one.
  destruct (active s) eqn:A; cbn [orb andb negb].
  - destruct (Z.ltb_spec 0 (cnt s)) as [C|C]; cbn [negb andb].
    + destruct (q_head s V C) as (n & r & Q & L). rewrite Q. replace (len (data n) <=? qsize s) with true by (symmetry; apply Z.leb_le; exact L). cbn [fst snd]. unfold moves. split.
      * destruct V. constructor; cbn; auto.
        -- right. eexists. reflexivity.
        -- unfold reading. cbn [workers q set_workers]. exists n. rewrite Q. cbn. auto.
        -- intros _. eexists. split; [ reflexivity | discriminate ].
        -- rewrite A. discriminate.
      * cbn. rewrite !app_nil_r. split; [ unfold queued; cbn; apply Permutation_refl |]. unfold current. rewrite W. cbn [workers q set_workers]. rewrite Q. cbn [at_id]. rewrite Z.eqb_refl. reflexivity.
    + apply moves_same; [| reflexivity |]. * destruct V. constructor; cbn; auto. -- right. eexists. reflexivity. -- intros _. eexists. split; [ reflexivity | discriminate ]. -- rewrite A. discriminate.
      * unfold current. cbn. now rewrite W.
  - destruct (Z.ltb_spec 0 (cnt s)) as [C|C]; cbn [negb andb].
    + destruct (q_head s V C) as (n & r & Q & L). rewrite Q. replace (len (data n) <=? qsize s) with true by (symmetry; apply Z.leb_le; exact L). cbn [fst snd]. unfold moves.
      assert (NF : ctrl s <> Free). { intro F. pose proof (i_free s V A F) as G. rewrite W in G. discriminate. }
      split.
      * destruct V. constructor; cbn; auto.
        -- right. eexists. reflexivity.
        -- unfold reading. cbn [workers q set_workers]. exists n. rewrite Q. cbn. auto.
        -- rewrite A. discriminate.
      * cbn. rewrite !app_nil_r. split; [ unfold queued; cbn; apply Permutation_refl |]. unfold current. rewrite W. cbn [workers q set_workers]. rewrite Q. cbn [at_id]. rewrite Z.eqb_refl. reflexivity.
    + apply moves_same; [| reflexivity |]. * destruct V. constructor; cbn; auto. -- right. eexists. reflexivity. -- rewrite A. discriminate.
      * unfold current. cbn. now rewrite W.
Qed.
Lemma done_moves s k ok a i sz : inv s -> nth_error (workers s) k = Some (Writing a i sz) -> moves s (snd (done s k ok a i sz)) (fst (done s k ok a i sz)) /\
  exists n q1 q2, q s = q1 ++ n :: q2 /\ id n = a /\ q (fst (done s k ok a i sz)) = q1 ++ q2 /\ snd (done s k ok a i sz) = [Wrote i (data n) ok] /\ key n = i.
Proof.
  intros V N. destruct (nth_one _ _ _ (i_one s V) N) as (W & ->). pose proof (i_reading s V) as RD. unfold reading in RD. rewrite W in RD. destruct RD as (n & X1 & X2 & X3 & X4). subst a.
  unfold done. pose proof (at_id_spec (q s) (id n)) as SP. rewrite (at_id_In _ _ (i_ids s V) X1) in *. destruct SP as (q1 & q2 & Q & _ & E & _). rewrite E, W, set_one. cbn [fst snd].
  split; [| exists n, q1, q2; auto ]. unfold moves. split.
  - assert (T : total (queued s) = total (pairs (q1 ++ q2)) + sz). { change (queued s) with (pairs (q s)). rewrite Q, !pairs_app. cbn [pairs map]. rewrite !total_app. cbn [total]. fold (pairs q2). unfold len in X4. lia. }
    pose proof (total_nonneg (pairs (q1 ++ q2))) as TN. pose proof (i_max s V) as M. pose proof (i_maxs s V) as M2. destruct HS as (S1 & S2 & S3). assert (0 <= sz) by (rewrite <- X4; unfold len; lia).
    assert (NF : active s = false -> ctrl s <> Free). { intros A F. pose proof (i_free s V A F) as G. rewrite W in G. discriminate. }
    destruct V. constructor; cbn [bad hung q qsize cnt maxs fresh workers calls exc ctrl active drop queued]; auto.
    + unfold keys in *. rewrite Q, map_app in i_sorted0. cbn [map] in i_sorted0. rewrite map_app. rewrite increasing_app in *. destruct i_sorted0 as (A & (_ & B) & C). split; [ exact A |]. split; [ exact B |]. eapply Forall_impl; [| exact C ]. cbn. intros x D. now inversion D.
    + unfold keys in *. rewrite Q, map_app in i_keys0. cbn [map] in i_keys0. rewrite map_app. rewrite Forall_app in *. destruct i_keys0 as (A & B). inversion B. auto.
    + unfold ids in *. rewrite Q, map_app in i_ids0. cbn [map] in i_ids0. rewrite map_app. now apply NoDup_remove_1 in i_ids0.
    + unfold ids in *. rewrite Q, map_app in i_fresh0. cbn [map] in i_fresh0. rewrite map_app. rewrite Forall_app in *. destruct i_fresh0 as (A & B). inversion B. auto.
    + unfold queued. cbn [q]. fold (pairs (q1 ++ q2)). rewrite i_size0, T. rewrite u64_small; unfold W64; lia.
    + rewrite i_cnt0, Q, !app_length. cbn [length]. pose proof (increasing_bound _ i_sorted0 _ _ i_keys0) as LB. unfold keys in LB. rewrite map_length, Q, app_length in LB. cbn [length] in LB. rewrite u64_small; unfold W64 in *; lia.
    + unfold queued. cbn [q]. fold (pairs (q1 ++ q2)). lia.
    + rewrite Forall_map. exact i_calls0.
    + right. eexists. reflexivity.
    + exact I.
    + intros _. eexists. split; [ reflexivity | discriminate ].
    + intros A F. exfalso. exact (NF A F).
  - cbn [accepted replaced settled begun written app]. rewrite !app_nil_r. split.
    + unfold queued. cbn [q]. fold (pairs (q s)). fold (pairs (q1 ++ q2)). rewrite Q, !pairs_app. cbn [pairs map]. rewrite X3. apply Permutation_sym, Permutation_middle.
    + unfold current. rewrite W. cbn [workers q]. rewrite (at_id_In _ _ (i_ids s V) X1). reflexivity.
Qed.
Lemma step_moves s a : inv s -> ok_act a -> no_race (snd (stp s a)) -> moves s (snd (stp s a)) (fst (stp s a)).
Proof.
  intros V OK R. assert (SAME : moves s [] s) by now apply moves_same. pose proof (i_bad s V) as BB. pose proof (i_hung s V) as HH. destruct a as [i l|k m|n d w| | |k|k ok|k|k]; unfold step in *; rewrite BB in R |- *; rewrite ?HH in R; rewrite ?HH.
  - destruct (active s) eqn:A; cbn [negb]. + destruct (Z.ltb_spec (maxs s) (len l)).
      * unfold moves. cbn. rewrite !app_nil_r. auto using Permutation_refl.
      * apply moves_same; [| reflexivity | reflexivity ]. destruct V. constructor; cbn; auto. rewrite Forall_app. split; [ assumption |]. constructor; [| constructor ]. cbn. cbn in OK. split; [ exact OK | lia ].
    + unfold moves. cbn. rewrite !app_nil_r. auto using Permutation_refl.
  - destruct (nth_error (calls s) k) as [c|] eqn:N; [| exact SAME ]. destruct (c_awake c); cbn [orb negb] in *; [| exact SAME ]. now apply enter_moves.
  - destruct (ctrl s) eqn:C; [| exact SAME ]. cbn in OK. apply stop_moves; auto.
  - destruct (ctrl s) eqn:C; [| exact SAME ]. apply stop_moves; auto.
  - destruct (ctrl s) as [|c] eqn:C; [ exact SAME |]. destruct (forallb gone (workers s)) eqn:G; [| exact SAME ]. apply after_stop_moves; auto. { apply (i_ctrl s V). rewrite C. discriminate. } pose proof (i_pend s V) as P. rewrite C in P. destruct c as [[[? ?] ?]|]; auto.
  - destruct (nth_error (workers s) k) as [[| | |]|] eqn:N; try exact SAME. now apply work_moves.
  - destruct (nth_error (workers s) k) as [[| |a i sz|]|] eqn:N; try exact SAME. now apply done_moves.
  - destruct (nth_error (calls s) k) as [c|] eqn:N; [| exact SAME ]. apply moves_same; [| reflexivity | reflexivity ]. pose proof (i_calls s V) as CC. rewrite Forall_forall in CC. specialize (CC c (nth_error_In _ _ N)). destruct V. constructor; cbn; auto. apply Forall_set; assumption.
  - destruct (nth_error (workers s) k) as [[| | |]|] eqn:N; try exact SAME. destruct (nth_one _ _ _ (i_one s V) N) as (W & ->). rewrite W. cbn [set firstn skipn app]. apply moves_same; [| reflexivity | unfold current; cbn; rewrite W; reflexivity ].
    destruct V. constructor; cbn; auto. + right. eexists. reflexivity. + intros _. eexists. split; [ reflexivity | discriminate ]. + intros A F. specialize (i_free0 A F). rewrite W in i_free0. discriminate.
Qed.

(** ** runs *)
Lemma moves_trans s o1 s1 o2 s2 : moves s o1 s1 -> moves s1 o2 s2 -> moves s (o1 ++ o2) s2.
Proof.
  intros (_ & P1 & C1) (V & P2 & C2). split; [ exact V |]. rewrite accepted_app, replaced_app, settled_app, begun_app, written_app. split.
  - apply Permutation_trans with ((replaced o1 ++ settled o1) ++ (queued s1 ++ accepted o2)).
    + rewrite app_assoc. apply Permutation_trans with ((replaced o1 ++ settled o1 ++ queued s1) ++ accepted o2); [ now apply Permutation_app_tail |]. rewrite <- !app_assoc. apply Permutation_refl.
    + apply Permutation_trans with ((replaced o1 ++ settled o1) ++ (replaced o2 ++ settled o2 ++ queued s2)); [ now apply Permutation_app_head |].
      rewrite <- !app_assoc. apply Permutation_app_head. rewrite !app_assoc. apply Permutation_app_tail. apply Permutation_app_tail. apply Permutation_app_comm.
  - rewrite app_assoc, C1, <- app_assoc, C2, app_assoc. reflexivity.
Qed.
Lemma run_moves l : forall s, inv s -> Forall ok_act l -> no_race (snd (rn s l)) -> moves s (snd (rn s l)) (fst (rn s l)).
Proof.
  induction l as [|a l IH]; intros s V F R; cbn [run] in *. { now apply moves_same. }
  inversion F as [| ? ? OA OL]; subst. pose proof (step_moves s a V OA) as M. destruct (stp s a) as (s1 & o1). cbn [fst snd] in *. specialize (IH s1). destruct (rn s1 l) as (s2 & o2). cbn [fst snd] in *.
  apply no_race_app in R. destruct R as (R1 & R2). specialize (M R1). eapply moves_trans; [ exact M |]. apply IH; [ apply M | exact OL | exact R2 ].
Qed.
Lemma ok_acts l : one_worker l -> Forall (fun i => 0 <= i < W64 - 1) (asked l) -> Forall ok_act l.
Proof. induction l as [|a l IH]; intros O A; [ constructor |]. destruct a; cbn [one_worker asked] in *; try (constructor; [ exact I | apply IH; assumption ]). - inversion A; subst. constructor; [ assumption | auto ]. - destruct O. constructor; [ assumption | auto ]. Qed.

(** distinct indices never meet in the queue *)
Definition apart (s : st) (r : list Z) : Prop := NoDup (map c_idx (calls s) ++ r) /\ forall i, In i (keys (q s)) -> ~ In i (map c_idx (calls s) ++ r).
Lemma nth_remove {A} (l : list A) k x : nth_error l k = Some x -> exists l1 l2, l = l1 ++ x :: l2 /\ remove l k = l1 ++ l2 /\ forall y, set l k y = l1 ++ y :: l2.
Proof.
  revert k. induction l as [|a l IH]; intros [|k] H; cbn in H; try discriminate.
  - injection H as ->. exists [], l. auto.
  - destruct (IH k H) as (l1 & l2 & A1 & A2 & A3). exists (a :: l1), l2. cbn [app]. split; [ congruence |]. unfold remove, set in *. cbn [firstn skipn app]. split; [ congruence |]. intro y. now rewrite A3.
Qed.
Lemma find_none q i : ~ In i (keys q) -> find q i = None.
Proof. induction q as [|n q IH]; intro H; [ reflexivity |]. cbn [find keys map In] in *. destruct (Z.eqb_spec (key n) i); [ tauto |]. apply IH. tauto. Qed.
Lemma keys_put q i f l k : In k (keys (put q i f l)) -> k = i \/ In k (keys q).
Proof.
  induction q as [|n q IH]; cbn [put keys map In]. { intros [A|[]]; auto. }
  destruct (i <? key n); cbn [map In]. { intros [A|[A|A]]; auto. } destruct (i =? key n); cbn [map In key]. { intros [A|A]; auto. } intros [A|A]; auto. specialize (IH A). tauto.
Qed.
Lemma keys_erase q a q' k : erase q a = Some q' -> In k (keys q') -> In k (keys q).
Proof.
  revert q'. induction q as [|n q IH]; intros q' E H; cbn [erase] in E; [ discriminate |]. destruct (id n =? a). { injection E as ->. right. exact H. }
  destruct (erase q a) as [r|]; [| discriminate ]. injection E as <-. cbn [keys map In] in *. destruct H as [H|H]; [ auto | right; now apply (IH r) ].
Qed.
Lemma calls_idx_wake c : map c_idx (map wake_call c) = map c_idx c.
Proof. rewrite map_map. reflexivity. Qed.
Lemma set_idx l k c y : nth_error l k = Some c -> c_idx y = c_idx c -> map c_idx (set l k y) = map c_idx l.
Proof. intros H E. destruct (nth_remove l k c H) as (l1 & l2 & A & _ & B). rewrite B, A, !map_app. cbn [map]. now rewrite E. Qed.
Lemma stop_frame s c : (fst (stop cmin cmax s c) = s \/ calls (fst (stop cmin cmax s c)) = calls s /\ (q (fst (stop cmin cmax s c)) = q s \/ q (fst (stop cmin cmax s c)) = [])) /\ replaced (snd (stop cmin cmax s c)) = [] /\ no_race (snd (stop cmin cmax s c)).
Proof.
  unfold stop, after_stop, spawn. destruct (lost_map (q s)) as (_ & _ & _ & L4 & _). assert (NR : no_race (map (fun m => Lost (key m) (data m)) (q s))) by (intros i I; apply in_map_iff in I; destruct I as (? & ? & _); discriminate).
  assert (N0 : no_race []) by (intros i []). destruct (active s); [ destruct (hung s) | destruct (exc s); [ destruct c as [[[n d] w]|]; [ destruct (0 <? n) |] |] ]; cbn; auto; (split; [ auto | split; [ reflexivity |] ]); intros i [I|[]]; discriminate.
Qed.
Lemma after_stop_frame s c : calls (fst (after_stop cmin cmax s c)) = calls s /\ (q (fst (after_stop cmin cmax s c)) = q s \/ q (fst (after_stop cmin cmax s c)) = []) /\ replaced (snd (after_stop cmin cmax s c)) = [] /\ no_race (snd (after_stop cmin cmax s c)).
Proof.
  unfold after_stop, spawn. destruct (lost_map (q s)) as (_ & _ & _ & L4 & _). assert (NR : no_race (map (fun m => Lost (key m) (data m)) (q s))) by (intros i I; apply in_map_iff in I; destruct I as (? & ? & _); discriminate).
  assert (N0 : no_race []) by (intros i []). destruct (exc s); [ destruct c as [[[n d] w]|]; [ destruct (0 <? n) |] |]; cbn; auto; (split; [ auto | split; [ auto | split; [ reflexivity |] ] ]); intros i [I|[]]; discriminate.
Qed.
Lemma apart_frame s s' r : apart s r -> map c_idx (calls s') = map c_idx (calls s) -> (q s' = q s \/ q s' = []) -> apart s' r.
Proof. intros (A & B) C D. unfold apart. rewrite C. split; [ exact A |]. destruct D as [D|D]; rewrite D; [ exact B | intros i [] ]. Qed.
Lemma apart_step s a r : apart s (asked [a] ++ r) -> apart (fst (stp s a)) r /\ replaced (snd (stp s a)) = [] /\ no_race (snd (stp s a)).
Proof.
  intro D. assert (N0 : no_race []) by (intros i []). assert (TAIL : apart s r).
  { destruct D as (D1 & D2). split. - destruct a; cbn [asked app] in D1; try exact D1. now apply NoDup_remove_1 in D1. - intros i I. specialize (D2 i I). destruct a; cbn [asked app] in D2; try exact D2. intro X. apply D2. rewrite in_app_iff in *. cbn [In]. tauto. }
  unfold step. destruct (bad s) eqn:BB. { cbn [fst snd]. auto. }
  destruct a as [i l|k m|n d w| | |k|k ok|k|k].
  - destruct (active s); cbn [negb]; [ destruct (maxs s <? len l) |]; cbn [fst snd].
    + split; [ exact TAIL |]. split; [ reflexivity |]. intros j [J|[]]; discriminate.
    + split; [| auto ]. destruct D as (D1 & D2). unfold apart. cbn [set_calls calls q]. rewrite map_app. cbn [map c_idx]. rewrite <- app_assoc. cbn [app] in *. cbn [asked app] in D1, D2. auto.
    + split; [ exact TAIL |]. split; [ reflexivity |]. intros j [J|[]]; discriminate.
  - destruct (nth_error (calls s) k) as [c|] eqn:N; [| cbn [fst snd]; auto ]. destruct (hung s || negb (c_awake c)); [ cbn [fst snd]; auto |].
    destruct (nth_remove _ _ _ N) as (l1 & l2 & E1 & E2 & E3). unfold enter. pose proof TAIL as TAIL0. destruct TAIL as (D1 & D2). rewrite E1, map_app in D1, D2. cbn [map] in D1, D2. rewrite <- app_assoc in D1, D2. cbn [app] in D1, D2.
    assert (AP : forall s', calls s' = l1 ++ l2 -> (forall k, In k (keys (q s')) -> k = c_idx c \/ In k (keys (q s))) -> apart s' r).
    { intros s' C K. unfold apart. rewrite C, map_app, <- app_assoc. split. - now apply NoDup_remove_1 in D1. - intros i I. destruct (K i I) as [->|I2]. + now apply NoDup_remove_2 in D1. + specialize (D2 i I2). rewrite in_app_iff in *. cbn [In] in D2. tauto. }
    destruct (size_with s (c_idx c) (c_data c) <=? maxs s); [| destruct (drop s) ]; cbn [fst snd].
    + rewrite find_none. 2: { intro I. apply (D2 _ I). rewrite in_app_iff. cbn [In]. tauto. } cbn [app]. split; [| split; [ reflexivity | intros j [J|[]]; discriminate ] ]. apply AP; cbn [calls q]; [ exact E2 |]. intros j. apply keys_put.
    + split; [| split; [ reflexivity | intros j [J|[]]; discriminate ] ]. apply AP; cbn [calls q set_calls]; auto.
    + split; [| auto ]. apply apart_frame with s; cbn [calls q set_calls]; [ exact TAIL0 | now apply set_idx with c | now left ].
  - destruct (ctrl s); [| cbn [fst snd]; auto ]. destruct (stop_frame s (Some (n, d, w))) as (A & B). split; [| exact B ]. destruct A as [A|(A1 & A2)]; [ now rewrite A |]. apply apart_frame with s; auto. now rewrite A1.
  - destruct (ctrl s); [| cbn [fst snd]; auto ]. destruct (stop_frame s None) as (A & B). split; [| exact B ]. destruct A as [A|(A1 & A2)]; [ now rewrite A |]. apply apart_frame with s; auto. now rewrite A1.
  - destruct (ctrl s) as [|c]; [ cbn [fst snd]; auto |]. destruct (forallb gone (workers s)); [| cbn [fst snd]; auto ]. destruct (after_stop_frame s c) as (A1 & A2 & B). split; [| exact B ]. apply apart_frame with s; auto. now rewrite A1.
  - destruct (nth_error (workers s) k) as [[| | |]|]; try (cbn [fst snd]; auto; fail). destruct (hung s); [ cbn [fst snd]; auto |]. unfold work.
    destruct (negb (active s || (0 <? cnt s))); [| destruct (active s && negb (0 <? cnt s)); [| destruct (q s) as [|x y] eqn:Q; [| destruct (len (data x) <=? qsize s)] ]]; cbn [fst snd]; (split; [ apply apart_frame with s; auto; cbn; auto; fail | split; [ reflexivity |] ]); auto; intros j [J|[]]; discriminate.
  - destruct (nth_error (workers s) k) as [[| |a i sz|]|]; try (cbn [fst snd]; auto; fail). destruct (hung s); [ cbn [fst snd]; auto |]. unfold done. destruct (at_id (q s) a) as [x|]; [ destruct (erase (q s) a) as [q'|] eqn:E |]; cbn [fst snd]; try (split; [ apply apart_frame with s; auto; fail | auto ]).
    split; [| split; [ reflexivity | intros j [J|[]]; discriminate ] ]. destruct TAIL as (D1 & D2). unfold apart. cbn [calls q]. rewrite calls_idx_wake. split; [ exact D1 |]. intros j J. apply D2. now apply keys_erase with a q'.
  - destruct (nth_error (calls s) k) as [c|] eqn:N; cbn [fst snd]; auto. split; [| auto ]. apply apart_frame with s; auto. cbn [calls set_calls]. now apply set_idx with c.
  - destruct (nth_error (workers s) k) as [[| | |]|]; cbn [fst snd]; auto.
Qed.
Lemma asked_cons a l : asked (a :: l) = asked [a] ++ asked l.
Proof. destruct a; reflexivity. Qed.
Lemma apart_run l : forall s, apart s (asked l) -> replaced (snd (rn s l)) = [] /\ no_race (snd (rn s l)).
Proof.
  induction l as [|a l IH]; intros s D; cbn [run]. { split; [ reflexivity | intros i [] ]. }
  rewrite asked_cons in D. pose proof (apart_step s a _ D) as (A & B & C). destruct (stp s a) as (s1 & o1). cbn [fst snd] in *. specialize (IH s1 A). destruct (rn s1 l) as (s2 & o2). cbn [fst snd] in *. rewrite replaced_app, B. cbn [app]. rewrite no_race_app. tauto.
Qed.

(** ** the exceptions *)
Lemma exc_step s a : Permutation (exc s ++ failed (snd (stp s a))) (rethrown (snd (stp s a)) ++ exc (fst (stp s a))).
Proof.
  assert (SAME : Permutation (exc s ++ []) ([] ++ exc s)) by (rewrite app_nil_r; apply Permutation_refl).
  assert (LM : forall l, failed (map (fun m => Lost (key m) (data m)) l) = [] /\ rethrown (map (fun m => Lost (key m) (data m)) l) = []) by (induction l as [|x l (A & B)]; cbn [map failed rethrown]; auto).
  assert (AS : forall c, Permutation (exc s ++ failed (snd (after_stop cmin cmax s c))) (rethrown (snd (after_stop cmin cmax s c)) ++ exc (fst (after_stop cmin cmax s c)))).
  { intro c. unfold after_stop, spawn. destruct (LM (q s)) as (L1 & L2). destruct (exc s) as [|e r] eqn:E; [ destruct c as [[[n d] w]|]; [ destruct (0 <? n) |] |]; cbn [fst snd failed rethrown exc set_ctrl]; rewrite ?L1, ?L2, ?E; auto. }
  assert (ST : forall c, Permutation (exc s ++ failed (snd (stop cmin cmax s c))) (rethrown (snd (stop cmin cmax s c)) ++ exc (fst (stop cmin cmax s c)))).
  { intro c. unfold stop. destruct (active s); [ destruct (hung s); exact SAME | apply AS ]. }
  unfold step. destruct (bad s); [ exact SAME |]. destruct a as [i l|k m|n d w| | |k|k ok|k|k].
  - destruct (active s); cbn [negb]; [ destruct (maxs s <? len l) |]; exact SAME.
  - destruct (nth_error (calls s) k) as [c|]; [| exact SAME ]. destruct (hung s || negb (c_awake c)); [ exact SAME |]. unfold enter. destruct (size_with s (c_idx c) (c_data c) <=? maxs s); [| destruct (drop s); exact SAME ]. cbn [fst snd]. rewrite failed_app, rethrown_app.
    destruct (find (q s) (c_idx c)) as [n|]; [ destruct (existsb (reads (id n)) (workers s)) |]; exact SAME.
  - destruct (ctrl s); [ apply ST | exact SAME ].
  - destruct (ctrl s); [ apply ST | exact SAME ].
  - destruct (ctrl s); [ exact SAME |]. destruct (forallb gone (workers s)); [ apply AS | exact SAME ].
  - destruct (nth_error (workers s) k) as [[| | |]|]; try exact SAME. destruct (hung s); [ exact SAME |]. unfold work.
    destruct (negb (active s || (0 <? cnt s))); [| destruct (active s && negb (0 <? cnt s)); [| destruct (q s) as [|x y]; [| destruct (len (data x) <=? qsize s)] ]]; exact SAME.
  - destruct (nth_error (workers s) k) as [[| |a i sz|]|]; try exact SAME. destruct (hung s); [ exact SAME |]. unfold done. destruct (at_id (q s) a) as [x|]; [ destruct (erase (q s) a) as [q'|] |]; try exact SAME.
    destruct ok; cbn [fst snd failed rethrown exc app]; [ exact SAME |]. apply Permutation_sym, Permutation_cons_append.
  - destruct (nth_error (calls s) k); exact SAME.
  - destruct (nth_error (workers s) k) as [[| | |]|]; exact SAME.
Qed.
Lemma exc_run l : forall s, Permutation (exc s ++ failed (snd (rn s l))) (rethrown (snd (rn s l)) ++ exc (fst (rn s l))).
Proof.
  induction l as [|a l IH]; intro s; cbn [run]. { rewrite app_nil_r. apply Permutation_refl. }
  pose proof (exc_step s a) as P. destruct (stp s a) as (s1 & o1). specialize (IH s1). destruct (rn s1 l) as (s2 & o2). cbn [fst snd] in *. rewrite failed_app, rethrown_app, app_assoc.
  apply Permutation_trans with ((rethrown o1 ++ exc s1) ++ failed o2); [ now apply Permutation_app_tail |]. rewrite <- !app_assoc. now apply Permutation_app_head.
Qed.

(** ** order *)
Definition head_read (s : st) : Prop := match workers s with [Writing a _ _] => exists n r, q s = n :: r /\ id n = a | _ => True end.
Lemma put_last q i f l : Forall (fun n => key n < i) q -> put q i f l = q ++ [Node i f l].
Proof. induction q as [|n q IH]; intro F; [ reflexivity |]. inversion F; subst. cbn [put app]. replace (i <? key n) with false by (symmetry; apply Z.ltb_ge; lia). replace (i =? key n) with false by (symmetry; apply Z.eqb_neq; lia). now rewrite IH. Qed.
Lemma order_step s a A S : inv s -> ok_act a -> head_read s -> S ++ queued s = A -> increasing (map fst (A ++ accepted (snd (stp s a)))) ->
  no_race (snd (stp s a)) /\ head_read (fst (stp s a)) /\ (S ++ settled (snd (stp s a))) ++ queued (fst (stp s a)) = A ++ accepted (snd (stp s a)).
Proof.
  intros V OK H E INC. assert (N0 : no_race []) by (intros i []). pose proof (i_bad s V) as BB. pose proof (i_hung s V) as HH.
  assert (SAME : forall s', q s' = q s -> head_read s' -> no_race [] /\ head_read s' /\ (S ++ []) ++ queued s' = A ++ []). { intros s' Q HR. split; [ exact N0 |]. split; [ exact HR |]. unfold queued in *. rewrite Q, !app_nil_r. exact E. }
  assert (LM : forall l, no_race (map (fun m => Lost (key m) (data m)) l)) by (intros l i I; apply in_map_iff in I; destruct I as (? & ? & _); discriminate).
  assert (AS : forall c, match c with Some (_, _, w) => w = 1%nat | None => True end -> no_race (snd (after_stop cmin cmax s c)) /\ head_read (fst (after_stop cmin cmax s c)) /\ (S ++ settled (snd (after_stop cmin cmax s c))) ++ queued (fst (after_stop cmin cmax s c)) = A ++ accepted (snd (after_stop cmin cmax s c))).
  { intros c W. unfold after_stop, spawn. destruct (exc s) as [|e r]; [ destruct c as [[[n d] w]|]; [ destruct (0 <? n) |] |]; cbn [fst snd].
    - destruct (lost_map (q s)) as (L1 & _ & _ & _ & L5 & _). subst w. split; [ apply LM |]. split; [ exact I |]. rewrite L1, L5. unfold queued. cbn [q map]. rewrite !app_nil_r. exact E.
    - apply SAME; [ reflexivity | exact H ].
    - split; [ intros j [J|[]]; discriminate |]. cbn. rewrite !app_nil_r. auto.
    - split; [ intros j [J|[]]; discriminate |]. cbn. rewrite !app_nil_r. auto. }
  assert (ST : forall c, match c with Some (_, _, w) => w = 1%nat | None => True end -> no_race (snd (stop cmin cmax s c)) /\ head_read (fst (stop cmin cmax s c)) /\ (S ++ settled (snd (stop cmin cmax s c))) ++ queued (fst (stop cmin cmax s c)) = A ++ accepted (snd (stop cmin cmax s c))).
  { intros c W. unfold stop. rewrite HH. destruct (active s); [| now apply AS ]. cbn [fst snd]. apply SAME; [ reflexivity |]. unfold head_read in *. cbn [workers q]. destruct (i_one s V) as [O|(x & O)]; rewrite O in *; cbn [map]; [ exact I | destruct x; exact H ]. }
  unfold step in *. rewrite BB in *. rewrite ?HH in *. destruct a as [i l|k m|n d w| | |k|k ok|k|k].
  - destruct (active s); cbn [negb]; [ destruct (maxs s <? len l) |]; cbn [fst snd]; [ | apply SAME; [ reflexivity | exact H ] | ]; (split; [ intros j [J|[]]; discriminate |]; cbn; rewrite !app_nil_r; auto).
  - destruct (nth_error (calls s) k) as [c|] eqn:N; [| now apply SAME ]. cbn [orb] in *. destruct (negb (c_awake c)); [ now apply SAME |]. unfold enter in *.
    destruct (size_with s (c_idx c) (c_data c) <=? maxs s); [| destruct (drop s); cbn [fst snd] ].
    2: { split; [ intros j [J|[]]; discriminate |]. cbn. rewrite !app_nil_r. auto. }
    2: { apply SAME; [ reflexivity | exact H ]. }
    cbn [fst snd] in *. set (i := c_idx c) in *. set (l := c_data c) in *.
    assert (LT : Forall (fun n => key n < i) (q s)).
    { rewrite accepted_app in INC. assert (AA : accepted [Accepted i l (position (put (q s) i (fresh s) l) i)] = [(i, l)]) by reflexivity. rewrite AA in INC. rewrite app_assoc, map_app in INC. cbn [map fst] in INC. rewrite increasing_app in INC. destruct INC as (_ & _ & INC).
      rewrite map_app, Forall_app in INC. destruct INC as (INC & _). rewrite <- E in INC. rewrite map_app, Forall_app in INC. destruct INC as (_ & INC). unfold queued in INC. rewrite map_map in INC. rewrite Forall_map in INC. eapply Forall_impl; [| exact INC ]. cbn. intros x X. now inversion X. }
    rewrite find_none. 2: { unfold keys. rewrite in_map_iff. intros (n & K & I). rewrite Forall_forall in LT. specialize (LT n I). lia. }
    cbn [app]. split; [ intros j [J|[]]; discriminate |]. rewrite put_last by exact LT. split.
    + unfold head_read in *. cbn [workers q]. destruct (i_one s V) as [O|(x & O)]; rewrite O in *. * destruct m; exact I. * rewrite wake_one_one. destruct x; cbn [wake]; auto. destruct H as (nn & r & Q & X). rewrite Q. exists nn, (r ++ [Node i (fresh s) l]). auto.
    + unfold queued in *. cbn [q settled accepted]. rewrite app_nil_r, map_app. cbn [map key data]. rewrite app_assoc, E. reflexivity.
  - destruct (ctrl s); [| now apply SAME ]. apply ST. exact OK.
  - destruct (ctrl s); [| now apply SAME ]. apply ST. exact I.
  - destruct (ctrl s) as [|c] eqn:C; [ now apply SAME |]. destruct (forallb gone (workers s)); [| now apply SAME ]. apply AS. pose proof (i_pend s V) as P. rewrite C in P. destruct c as [[[? ?] ?]|]; auto.
  - destruct (nth_error (workers s) k) as [[| | |]|] eqn:N; try (now apply SAME). destruct (nth_one _ _ _ (i_one s V) N) as (W & ->). unfold work. rewrite W, !set_one.
    destruct (negb (active s || (0 <? cnt s))); [ apply SAME; [ reflexivity | exact I ] |]. destruct (active s && negb (0 <? cnt s)); [ apply SAME; [ reflexivity | exact I ] |].
    destruct (q s) as [|x y] eqn:Q. { apply SAME; [ reflexivity | unfold head_read; cbn [fst workers]; exact I ]. } destruct (len (data x) <=? qsize s). 2: { apply SAME; [ reflexivity | unfold head_read; cbn [fst workers]; exact I ]. }
    cbn [fst snd]. split; [ intros j [J|[]]; discriminate |]. split. { unfold head_read. cbn [workers q set_workers]. exists x, y. auto. } cbn. rewrite !app_nil_r. exact E.
  - destruct (nth_error (workers s) k) as [[| |a i sz|]|] eqn:N; try (now apply SAME). destruct (done_moves s k ok a i sz V N) as (M & n & q1 & q2 & Q & ID & Q' & O & K). rewrite O. destruct (nth_one _ _ _ (i_one s V) N) as (W & ->).
    split; [ intros j [J|[]]; discriminate |]. unfold head_read in H. rewrite W in H. destruct H as (n1 & r & Q1 & ID1).
    assert (q1 = [] /\ n1 = n /\ r = q2) as (-> & -> & ->).
    { destruct q1 as [|y q1]. { rewrite Q in Q1. injection Q1 as -> ->. auto. } exfalso. pose proof (i_ids s V) as ND. rewrite Q in Q1. cbn [app] in Q1. injection Q1 as -> <-. rewrite Q in ND. cbn [app ids map] in ND. inversion ND; subst. apply H1. rewrite map_app. apply in_or_app. right. left. congruence. }
    split. { unfold head_read. unfold done. destruct (at_id (q s) a) as [x|] eqn:X; [ destruct (erase (q s) a) as [q'|] eqn:Y |]; cbn [fst workers]; rewrite ?W, ?set_one; try exact I; cbn [q]; exists n, q2; auto. }
    cbn [settled accepted app]. unfold queued in *. rewrite Q'. rewrite app_nil_r. rewrite Q in E. cbn [map app] in *. rewrite K in E. rewrite <- E. rewrite <- app_assoc. reflexivity.
  - destruct (nth_error (calls s) k) as [c|]; now apply SAME.
  - destruct (nth_error (workers s) k) as [[| | |]|] eqn:N; try (now apply SAME). destruct (nth_one _ _ _ (i_one s V) N) as (W & ->). apply SAME; [ reflexivity |]. unfold head_read. cbn [set_workers workers]. rewrite W, set_one. exact I.
Qed.
Lemma order_run l : forall s A S, inv s -> Forall ok_act l -> head_read s -> S ++ queued s = A -> increasing (map fst (A ++ accepted (snd (rn s l)))) ->
  no_race (snd (rn s l)) /\ (S ++ settled (snd (rn s l))) ++ queued (fst (rn s l)) = A ++ accepted (snd (rn s l)).
Proof.
  induction l as [|a l IH]; intros s A S V F H E INC; cbn [run] in *. { rewrite !app_nil_r. split; [ intros i [] | exact E ]. }
  inversion F as [| ? ? OA OL]; subst. pose proof (order_step s a (S ++ queued s) S V OA H eq_refl) as O. pose proof (step_moves s a V OA) as M. destruct (stp s a) as (s1 & o1). cbn [fst snd] in *.
  specialize (IH s1 ((S ++ queued s) ++ accepted o1) (S ++ settled o1)). destruct (rn s1 l) as (s2 & o2). cbn [fst snd] in *. rewrite accepted_app, settled_app, app_assoc in *.
  destruct O as (O1 & O2 & O3). { rewrite map_app in INC. apply increasing_app in INC. tauto. } destruct (M O1) as (V1 & _). destruct IH as (R & X); auto. rewrite no_race_app. split; [ auto |]. rewrite ?app_assoc in *. exact X.
Qed.

(** ** nobody sleeps for ever when starts and stops do not overlap calls *)
Record calm (s : st) : Prop := Calm {
  t_calls : active s = false -> calls s = [];
  t_gone : forallb gone (workers s) = true -> q s = [];
  t_asleep : Exists (fun c => c_awake c = false) (calls s) -> q s <> [];
  t_len : Forall (fun c => len (c_data c) <= maxs s) (calls s);
  t_wake : workers s = [Asleep] -> q s = [] /\ active s = true }.
Lemma calm_init : calm init.
Proof. constructor; cbn; auto; try discriminate. intro H. inversion H. Qed.
Lemma cnt_pos s : inv s -> (0 <? cnt s) = match q s with [] => false | _ => true end.
Proof. intro V. rewrite (i_cnt s V). destruct (q s); [ reflexivity |]. apply Z.ltb_lt. cbn [length]. lia. Qed.
Lemma wake_asleep w : wake w <> Asleep. Proof. destruct w; discriminate. Qed.
Lemma put_nonempty q i f l : put q i f l <> [].
Proof. destruct q as [|n q]; cbn [put]; [ discriminate |]. destruct (i <? key n); [ discriminate |]. destruct (i =? key n); discriminate. Qed.
Lemma calm_step s a : inv s -> calm s -> ok_act a -> match a with Start _ _ _ | Stop => calls s = [] | _ => True end -> calm (fst (stp s a)) /\ lost (snd (stp s a)) = [].
Proof.
  intros V T OK TA. assert (SAME : calm s /\ lost [] = []) by auto.
  pose proof (i_bad s V) as BB. pose proof (i_hung s V) as HH. pose proof (cnt_pos s V) as CP.
  assert (AS : forall c, calls s = [] -> match c with Some (_, _, w) => w = 1%nat | None => True end -> active s = false -> forallb gone (workers s) = true -> calm (fst (after_stop cmin cmax s c)) /\ lost (snd (after_stop cmin cmax s c)) = []).
  { intros c CE W A G. pose proof (t_gone s T G) as Q. unfold after_stop, spawn. destruct (lost_map (q s)) as (_ & _ & _ & _ & _ & L6). destruct T. destruct (exc s) as [|e r]; [ destruct c as [[[n d] w]|]; [ destruct (0 <? n) |] |]; cbn [fst snd]; (split; [| rewrite ?L6, ?Q; reflexivity ]); constructor; cbn; auto; rewrite ?CE; auto.
    - intro H. inversion H. }
  assert (ST : forall c, calls s = [] -> match c with Some (_, _, w) => w = 1%nat | None => True end -> ctrl s = Free -> calm (fst (stop cmin cmax s c)) /\ lost (snd (stop cmin cmax s c)) = []).
  { intros c CE W F. unfold stop. rewrite HH. destruct (active s) eqn:A; [| apply AS; auto; now apply (i_free s V) ]. cbn [fst snd]. split; [| reflexivity ]. destruct (i_alive s V A) as (x & X & X2). destruct T. constructor; cbn; auto; rewrite ?CE, ?X in *; auto.
    - cbn [map forallb andb]. destruct x; cbn; try discriminate. congruence.
    - cbn [map]. intro H. injection H as H. now apply wake_asleep in H. }
  unfold step. rewrite BB. destruct a as [i l|k m|n d w| | |k|k ok|k|k].
  - destruct (active s) eqn:A; cbn [negb]; [ destruct (Z.ltb_spec (maxs s) (len l)) as [L|L] |]; cbn [fst snd]; auto. split; [| reflexivity ]. destruct T. constructor; cbn; auto.
    + congruence.
    + intro X. apply t_asleep0. rewrite Exists_app in X. destruct X as [X|X]; [ exact X |]. inversion X as [? ? Y|? ? Y]; subst; [ discriminate | inversion Y ].
    + rewrite Forall_app. split; [ assumption |]. constructor; [ exact L | constructor ].
  - destruct (nth_error (calls s) k) as [c|] eqn:N; [| exact SAME ]. rewrite HH. cbn [orb]. destruct (negb (c_awake c)) eqn:AW; [ exact SAME |]. destruct (nth_remove _ _ _ N) as (l1 & l2 & E1 & E2 & E3). unfold enter.
    assert (ACT : active s = true). { destruct (active s) eqn:A; [ reflexivity |]. pose proof (t_calls s T A) as Z0. rewrite Z0 in N. destruct k; discriminate. }
    destruct (i_alive s V ACT) as (x & X & X2).
    assert (LC : len (c_data c) <= maxs s). { pose proof (t_len s T) as TL. rewrite Forall_forall in TL. apply TL. now apply nth_error_In with k. }
    destruct (size_with s (c_idx c) (c_data c) <=? maxs s) eqn:Fit; [| destruct (drop s) ]; cbn [fst snd].
    + split. 2: { rewrite lost_app. destruct (find (q s) (c_idx c)) as [n|]; [ destruct (existsb (reads (id n)) (workers s)) |]; reflexivity. }
      rewrite X, wake_one_one. destruct T. constructor; cbn [active calls workers q maxs].
      * rewrite ACT. discriminate.
      * cbn. destruct x; cbn; try discriminate. congruence.
      * intros _. apply put_nonempty.
      * now apply Forall_remove.
      * intro H. injection H as H. now apply wake_asleep in H.
    + split; [| reflexivity ]. destruct T. constructor; cbn [set_calls active calls workers q maxs]; auto.
      * rewrite ACT. discriminate.
      * intro H. apply t_asleep0. rewrite E2 in H. rewrite E1. rewrite Exists_app in *. destruct H as [H|H]; [ now left | right; now right ].
      * now apply Forall_remove.
    + split; [| reflexivity ]. pose proof (i_size s V) as IS. destruct T. constructor; cbn [set_calls active calls workers q maxs]; auto.
      * rewrite ACT. discriminate.
      * intros _ Q. pose proof (i_calls s V) as IC. rewrite Forall_forall in IC. destruct (IC c (nth_error_In _ _ N)) as (_ & IC2). assert (0 <= len (c_data c)) by (unfold len; lia). rewrite (size_with_spec s _ _ V) in Fit by lia. unfold queued in Fit. rewrite Q in Fit. cbn in Fit. apply Z.leb_gt in Fit. lia.
      * apply Forall_set; assumption.
  - destruct (ctrl s) eqn:C; [| exact SAME ]. now apply ST.
  - destruct (ctrl s) eqn:C; [| exact SAME ]. now apply ST.
  - destruct (ctrl s) as [|c] eqn:C; [ exact SAME |]. destruct (forallb gone (workers s)) eqn:G; [| exact SAME ]. assert (A : active s = false) by (apply (i_ctrl s V); rewrite C; discriminate). apply AS; auto. { now apply (t_calls s T). } pose proof (i_pend s V) as P. rewrite C in P. destruct c as [[[? ?] ?]|]; auto.
  - destruct (nth_error (workers s) k) as [[| | |]|] eqn:N; try exact SAME. destruct (nth_one _ _ _ (i_one s V) N) as (W & ->). rewrite HH. unfold work. rewrite W, !set_one, CP.
    destruct (q s) as [|x y] eqn:Q; [ destruct (active s) eqn:A |]; cbn [negb andb orb].
    + cbn [fst snd]. split; [| reflexivity ]. destruct T. constructor; cbn; auto; congruence.
    + cbn [fst snd]. split; [| reflexivity ]. destruct T. constructor; cbn; auto; try discriminate.
    + rewrite orb_true_r, andb_false_r. cbn [negb]. destruct (len (data x) <=? qsize s); cbn [fst snd]; (split; [| reflexivity ]); destruct T; constructor; cbn; auto; rewrite ?Q; auto; discriminate.
  - destruct (nth_error (workers s) k) as [[| |a i sz|]|] eqn:N; try exact SAME. rewrite HH. destruct (nth_one _ _ _ (i_one s V) N) as (W & ->). unfold done. destruct (at_id (q s) a) as [x|]; [ destruct (erase (q s) a) as [q'|] eqn:Y |]; cbn [fst snd].
    + split; [| reflexivity ]. rewrite W, set_one. destruct T. constructor; cbn; auto; try discriminate.
      * intro A. rewrite (t_calls0 A). reflexivity.
      * intro H. exfalso. clear -H. induction (calls s) as [|c l IH]; [ inversion H |]. inversion H; subst; [ discriminate | auto ].
      * rewrite Forall_map. exact t_len0.
    + split; [| reflexivity ]. destruct T. constructor; cbn; auto.
    + split; [| reflexivity ]. destruct T. constructor; cbn; auto.
  - destruct (nth_error (calls s) k) as [c|] eqn:N; [| exact SAME ]. split; [| reflexivity ]. destruct (nth_remove _ _ _ N) as (l1 & l2 & E1 & E2 & E3). assert (LC : len (c_data c) <= maxs s). { pose proof (t_len s T) as TL. rewrite Forall_forall in TL. apply TL. now apply nth_error_In with k. }
    destruct T. constructor; cbn [set_calls active calls workers q maxs]; auto.
    + intro A. specialize (t_calls0 A). rewrite t_calls0 in N. destruct k; discriminate.
    + intro H. apply t_asleep0. rewrite E3 in H. rewrite E1. apply Exists_app. apply Exists_app in H. destruct H as [H|H]; [ now left |]. inversion H; subst; [ discriminate | right; now right ].
    + apply Forall_set; assumption.
  - destruct (nth_error (workers s) k) as [[| | |]|] eqn:N; try exact SAME. destruct (nth_one _ _ _ (i_one s V) N) as (W & ->). split; [| reflexivity ]. rewrite W, set_one. destruct T. constructor; cbn; auto; discriminate.
Qed.
Lemma calm_run l : forall s, inv s -> calm s -> Forall ok_act l -> no_race (snd (rn s l)) -> tame cmin cmax s l -> calm (fst (rn s l)) /\ lost (snd (rn s l)) = [].
Proof.
  induction l as [|a l IH]; intros s V T F R TA; cbn [run tame] in *; [ auto |]. inversion F as [| ? ? OA OL]; subst. destruct TA as (TA1 & TA2).
  pose proof (step_moves s a V OA) as M. pose proof (calm_step s a V T OA TA1) as (C1 & C2). destruct (stp s a) as (s1 & o1). cbn [fst snd] in *. specialize (IH s1). destruct (rn s1 l) as (s2 & o2). cbn [fst snd] in *. apply no_race_app in R. destruct R as (R1 & R2). destruct (M R1) as (V1 & _).
  destruct IH as (I1 & I2); auto. rewrite lost_app, C2, I2. auto.
Qed.

(** the worker alone empties the queue *)
Definition works (a : act) : Prop := a = Work 0 \/ a = Done 0 true.
Lemma work_works s a : inv s -> works a -> moves s (snd (stp s a)) (fst (stp s a)).
Proof.
  intros V [ -> | -> ]; apply step_moves; auto; try exact I; unfold step; rewrite (i_bad s V), (i_hung s V); destruct (nth_error (workers s) 0) as [[| |a i sz|]|] eqn:N; cbn [fst snd]; try (intros j []).
  - unfold work. intros j J. destruct (negb (active s || (0 <? cnt s))); [| destruct (active s && negb (0 <? cnt s)); [| destruct (q s) as [|x y]; [| destruct (len (data x) <=? qsize s)] ]]; cbn in J; try tauto. destruct J; [ discriminate | tauto ].
  - unfold done. intros j J. destruct (at_id (q s) a) as [x|]; [ destruct (erase (q s) a) as [q'|] |]; cbn in J; try tauto. destruct J; [ discriminate | tauto ].
Qed.
Lemma work_begins s n r : inv s -> workers s = [Ready] -> q s = n :: r -> stp s (Work 0) = (set_workers s [Writing (id n) (key n) (len (data n))], [Began (key n) (data n)]).
Proof.
  intros V W Q. unfold step. rewrite (i_bad s V), W. cbn [nth_error]. rewrite (i_hung s V). unfold work. rewrite (cnt_pos s V), Q, W, orb_true_r, andb_false_r. cbn [negb].
  destruct (q_head s V) as (n1 & r1 & Q1 & L). { pose proof (cnt_pos s V) as C. rewrite Q in C. now apply Z.ltb_lt. } rewrite Q in Q1. injection Q1 as <- <-. apply Z.leb_le in L. rewrite L. reflexivity.
Qed.
Lemma done_ends s a i sz : inv s -> workers s = [Writing a i sz] -> exists n q1 q2, q s = q1 ++ n :: q2 /\ q (fst (stp s (Done 0 true))) = q1 ++ q2 /\ workers (fst (stp s (Done 0 true))) = [Ready] /\
  calls (fst (stp s (Done 0 true))) = map wake_call (calls s) /\ active (fst (stp s (Done 0 true))) = active s /\ maxs (fst (stp s (Done 0 true))) = maxs s /\ drop (fst (stp s (Done 0 true))) = drop s /\ ctrl (fst (stp s (Done 0 true))) = ctrl s.
Proof.
  intros V W. unfold step. rewrite (i_bad s V), W. cbn [nth_error]. rewrite (i_hung s V). destruct (done_moves s 0 true a i sz V) as (_ & n & q1 & q2 & Q & ID & Q' & O & K). { now rewrite W. }
  exists n, q1, q2. split; [ exact Q |]. split; [ exact Q' |]. unfold done in *. destruct (at_id (q s) a) as [x|]; [ destruct (erase (q s) a) as [q'|] |]; cbn [fst snd workers calls active maxs drop ctrl] in *; try discriminate. rewrite W. auto 10.
Qed.
Lemma drain k : forall s, inv s -> (length (q s) <= k)%nat -> (workers s = [Ready] \/ exists a i sz, workers s = [Writing a i sz]) ->
  exists l, Forall works l /\ let s' := fst (rn s l) in inv s' /\ q s' = [] /\ workers s' = [Ready] /\ active s' = active s /\ maxs s' = maxs s /\ drop s' = drop s /\ ctrl s' = ctrl s /\
    (q s <> [] -> calls s' = map wake_call (calls s)) /\ (q s = [] -> calls s' = calls s).
Proof.
  assert (FIN : forall k s, (forall s, inv s -> (length (q s) <= k)%nat -> (workers s = [Ready] \/ exists a i sz, workers s = [Writing a i sz]) ->
      exists l, Forall works l /\ let s' := fst (rn s l) in inv s' /\ q s' = [] /\ workers s' = [Ready] /\ active s' = active s /\ maxs s' = maxs s /\ drop s' = drop s /\ ctrl s' = ctrl s /\ (q s <> [] -> calls s' = map wake_call (calls s)) /\ (q s = [] -> calls s' = calls s)) ->
    inv s -> (length (q s) <= S k)%nat -> (exists a i sz, workers s = [Writing a i sz]) ->
    exists l, Forall works l /\ let s' := fst (rn s l) in inv s' /\ q s' = [] /\ workers s' = [Ready] /\ active s' = active s /\ maxs s' = maxs s /\ drop s' = drop s /\ ctrl s' = ctrl s /\ calls s' = map wake_call (calls s)).
  { clear k. intros k s IH V L (a & i & sz & W). destruct (done_ends s a i sz V W) as (n & q1 & q2 & Q & Q' & W' & C' & A' & M' & D' & X'). pose proof (work_works s (Done 0 true) V (or_intror eq_refl)) as (V1 & _). set (s1 := fst (stp s (Done 0 true))) in *.
    destruct (IH s1 V1) as (l & F & Y). { rewrite Q'. rewrite Q in L. rewrite app_length in *. cbn [length] in L. lia. } { auto. }
    exists (Done 0 true :: l). split; [ constructor; [ right; reflexivity | exact F ] |]. cbn [run]. unfold s1 in *. destruct (stp s (Done 0 true)) as (s2 & o2). cbn [fst] in *. destruct (rn s2 l) as (s3 & o3). cbn [fst] in *.
    destruct Y as (Y1 & Y2 & Y3 & Y4 & Y5 & Y6 & Y7 & Y8 & Y9). split; [ exact Y1 |]. split; [ exact Y2 |]. split; [ exact Y3 |]. split; [ congruence |]. split; [ congruence |]. split; [ congruence |]. split; [ congruence |].
    assert (WW : forall c, map wake_call (map wake_call c) = map wake_call c) by (intro c; rewrite map_map; reflexivity).
    destruct (q s2) as [|z r]; [ rewrite Y9 by reflexivity; exact C' |]. rewrite Y8 by discriminate. rewrite C'. apply WW. }
  induction k as [|k IH]; intros s V L W.
  - destruct (q s) as [|n r] eqn:Q; [| cbn in L; lia ]. destruct W as [W|(a & i & sz & W)].
    + exists []. split; [ constructor |]. cbn. rewrite Q. repeat (split; [ assumption || reflexivity |]). split; [ congruence | reflexivity ].
    + exfalso. pose proof (i_reading s V) as RD. unfold reading in RD. rewrite W in RD. destruct RD as (n & X1 & _). rewrite Q in X1. destruct X1.
  - destruct (q s) as [|n r] eqn:Q.
    + destruct (IH s V) as (l & X); [ rewrite Q; cbn; lia | exact W |]. exists l. rewrite Q in X. exact X.
    + destruct W as [W|W].
      * pose proof (work_begins s n r V W Q) as E. pose proof (work_works s (Work 0) V (or_introl eq_refl)) as (V1 & _). rewrite E in V1. cbn [fst] in V1. set (s1 := set_workers s [Writing (id n) (key n) (len (data n))]) in *.
        destruct (FIN k s1 IH V1) as (l & F & Y). { unfold s1. cbn [set_workers q]. rewrite Q. exact L. } { do 3 eexists. reflexivity. }
        exists (Work 0 :: l). split; [ constructor; [ left; reflexivity | exact F ] |]. cbn [run]. rewrite E. destruct (rn s1 l) as (s3 & o3). cbn [fst] in *. destruct Y as (Y1 & Y2 & Y3 & Y4 & Y5 & Y6 & Y7 & Y8).
        repeat (split; [ assumption |]). split; [ auto | discriminate ].
      * destruct (FIN k s IH V) as (l & F & Y). { rewrite Q. exact L. } { exact W. } exists l. split; [ exact F |]. cbn zeta in *. destruct Y as (Y1 & Y2 & Y3 & Y4 & Y5 & Y6 & Y7 & Y8). repeat (split; [ assumption |]). split; [ auto | discriminate ].
Qed.
Lemma worker_state s : inv s -> calm s -> forallb gone (workers s) = false -> (exists x, workers s = [x] /\ x <> Gone) /\ (workers s = [Ready] \/ (exists a i sz, workers s = [Writing a i sz]) \/ (workers s = [Asleep] /\ q s = [] /\ active s = true)).
Proof.
  intros V T G. destruct (i_one s V) as [W|(x & W)]; rewrite W in G; [ discriminate |]. destruct x; try discriminate; (split; [ eexists; split; [ exact W | discriminate ] |]); auto.
  - right. right. split; [ exact W |]. now apply (t_wake s T). - right. left. eauto.
Qed.
(** a blocked caller is served by the worker *)
Lemma served s k c : inv s -> calm s -> nth_error (calls s) k = Some c ->
  exists l, Forall works l /\ exists p, snd (rn s (l ++ [Enter k 0])) = snd (rn s l) ++ [Accepted (c_idx c) (c_data c) p].
Proof.
  intros V T N. assert (ACT : active s = true). { destruct (active s) eqn:A; [ reflexivity |]. pose proof (t_calls s T A) as Z0. rewrite Z0 in N. destruct k; discriminate. }
  assert (LC : len (c_data c) <= maxs s). { pose proof (t_len s T) as TL. rewrite Forall_forall in TL. apply TL. now apply nth_error_In with k. }
  assert (END : forall l s' c', fst (rn s l) = s' -> inv s' -> q s' = [] -> maxs s' = maxs s -> nth_error (calls s') k = Some c' -> c_idx c' = c_idx c -> c_data c' = c_data c -> c_awake c' = true -> exists p, snd (rn s (l ++ [Enter k 0])) = snd (rn s l) ++ [Accepted (c_idx c) (c_data c) p]).
  { intros l s' c' E V' Q M N' E1 E2 E3. rewrite run_app. destruct (rn s l) as (s1 & o1). cbn [fst] in E. subst s1. cbn [run]. unfold step. rewrite (i_bad s' V'), N', (i_hung s' V'), E3. cbn [orb negb]. unfold enter. rewrite Q, M, E1, E2. cbn [find].
    pose proof (i_maxs s V). destruct HS as (S1 & S2 & S3).
    assert (Z0 : size_with s' (c_idx c) (c_data c) = len (c_data c)). { rewrite size_with_spec; [| exact V' | unfold len in *; lia ]. unfold queued. rewrite Q. reflexivity. }
    rewrite Z0. apply Z.leb_le in LC. rewrite LC. cbn [snd app]. eexists. reflexivity. }
  destruct (i_alive s V ACT) as (x & X & X2). destruct (worker_state s V T) as (_ & W). { rewrite X. destruct x; try reflexivity. congruence. }
  assert (AW : q s = [] -> c_awake c = true). { intro Q. destruct (c_awake c) eqn:A; [ reflexivity |]. exfalso. refine (t_asleep s T _ Q). apply Exists_exists. exists c. split; [ now apply nth_error_In with k | exact A ]. }
  destruct W as [W|[W|(W & Q & _)]].
  3: { exists []. split; [ constructor |]. cbn [app snd]. change (@nil obs) with (snd (rn s [])). change [Enter k 0] with ([] ++ [Enter k 0]). apply END with s c; auto. }
  all: destruct (drain (length (q s)) s V (le_n _)) as (l & F & Y1 & Y2 & Y3 & Y4 & Y5 & Y6 & Y7 & Y8 & Y9); auto; exists l; (split; [ exact F |]); set (s' := fst (rn s l)) in *; destruct (q s) as [|n r].
  1, 3: apply END with s' c; auto; rewrite Y9; auto.
  all: apply END with s' (wake_call c); auto; rewrite Y8 by discriminate; now apply map_nth_error.
Qed.
(** a stop that waits for the worker ends *)
Lemma stop_ends s c : inv s -> calm s -> ctrl s = Joining c -> exists l, Forall works l /\ forallb gone (workers (fst (rn s l))) = true /\ q (fst (rn s l)) = [] /\ ctrl (fst (rn s l)) = Joining c.
Proof.
  intros V T C. assert (A : active s = false) by (apply (i_ctrl s V); rewrite C; discriminate). destruct (forallb gone (workers s)) eqn:G.
  { exists []. split; [ constructor |]. cbn. split; [ exact G |]. split; [ now apply (t_gone s T) | exact C ]. }
  destruct (worker_state s V T G) as (_ & W). assert (W2 : workers s = [Ready] \/ exists a i sz, workers s = [Writing a i sz]). { destruct W as [W|[W|(_ & _ & W)]]; auto. congruence. }
  destruct (drain (length (q s)) s V (le_n _) W2) as (l & F & Y1 & Y2 & Y3 & Y4 & Y5 & Y6 & Y7 & _). exists (l ++ [Work 0]). split. { apply Forall_app. split; [ exact F |]. constructor; [ left; reflexivity | constructor ]. }
  rewrite run_app. destruct (rn s l) as (s1 & o1). cbn [fst] in *. cbn [run]. unfold step. rewrite (i_bad s1 Y1), Y3. cbn [nth_error]. rewrite (i_hung s1 Y1). unfold work. rewrite (cnt_pos s1 Y1), Y2, Y4, A, Y3. cbn. auto. split; [ reflexivity |]. split; [ exact Y2 | congruence ].
Qed.

(** ** statements from the start *)
Lemma settled_perm o : Permutation (settled o) (written o ++ lost o).
Proof. induction o as [|x o IH]; [ apply perm_nil |]. destruct x; cbn [settled written lost app]; try exact IH. - now constructor. - apply Permutation_trans with ((i, l) :: written o ++ lost o); [ now constructor | apply Permutation_middle ]. Qed.
Lemma usual_ok l : usual l -> Forall ok_act l.
Proof. intros (A & B). now apply ok_acts. Qed.
Lemma cmax_pos : 0 <= cmax. Proof. destruct HS as (A & B & C). lia. Qed.
Lemma conservation l : usual l -> no_race (snd (rn init l)) ->
  Permutation (accepted (snd (rn init l))) (replaced (snd (rn init l)) ++ written (snd (rn init l)) ++ lost (snd (rn init l)) ++ queued (fst (rn init l))).
Proof.
  intros U R. destruct (run_moves l init (inv_init cmax_pos) (usual_ok l U) R) as (_ & P & _). cbn [queued q init map app] in P. eapply Permutation_trans; [ exact P |]. apply Permutation_app_head. rewrite (app_assoc (written _)). apply Permutation_app_tail. apply settled_perm.
Qed.
Lemma in_progress l : usual l -> no_race (snd (rn init l)) -> exists c, (length c <= 1)%nat /\ begun (snd (rn init l)) = written (snd (rn init l)) ++ c /\ (forallb gone (workers (fst (rn init l))) = true -> c = []).
Proof.
  intros U R. destruct (run_moves l init (inv_init cmax_pos) (usual_ok l U) R) as (_ & _ & C). exists (current (fst (rn init l))). cbn [current init workers app] in C. split; [| split; [ exact C |] ].
  - unfold current. destruct (workers (fst (rn init l))) as [|[| |a i z|] [|? ?]]; cbn; auto. destruct (at_id (q (fst (rn init l))) a); cbn; auto.
  - unfold current. destruct (workers (fst (rn init l))) as [|[| |a i z|] [|? ?]]; cbn; auto. discriminate.
Qed.
Lemma apart_init r : NoDup r -> apart init r.
Proof. intro N. split; [ exact N |]. intros i []. Qed.
Lemma distinct_once l : usual l -> NoDup (asked l) -> no_race (snd (rn init l)) /\ replaced (snd (rn init l)) = [] /\
  Permutation (accepted (snd (rn init l))) (written (snd (rn init l)) ++ lost (snd (rn init l)) ++ queued (fst (rn init l))).
Proof. intros U N. destruct (apart_run l init (apart_init _ N)) as (A & B). split; [ exact B |]. split; [ exact A |]. pose proof (conservation l U B) as P. rewrite A in P. exact P. Qed.
Lemma in_order l : usual l -> increasing (map fst (accepted (snd (rn init l)))) -> accepted (snd (rn init l)) = settled (snd (rn init l)) ++ queued (fst (rn init l)).
Proof. intros U N. destruct (order_run l init [] [] (inv_init cmax_pos) (usual_ok l U) I eq_refl N) as (_ & B). cbn [app] in B. now symmetry. Qed.
Lemma reach l : usual l -> no_race (snd (rn init l)) -> inv (fst (rn init l)).
Proof. intros U R. apply (run_moves l init (inv_init cmax_pos) (usual_ok l U) R). Qed.
Lemma reach_calm l : usual l -> no_race (snd (rn init l)) -> tame cmin cmax init l -> calm (fst (rn init l)) /\ lost (snd (rn init l)) = [].
Proof. intros U R T. apply calm_run; auto. - apply inv_init, cmax_pos. - apply calm_init. - now apply usual_ok. Qed.
Lemma sorted_keys s : inv s -> increasing (map fst (queued s)).
Proof. intro V. unfold queued. rewrite map_map. exact (i_sorted s V). Qed.
Lemma filter_lower i q1 r : Forall (fun n => key n < i) q1 -> Forall (fun n => i <= key n) r -> length (filter (fun p => fst p <? i) (pairs (q1 ++ r))) = length q1.
Proof.
  intros A B. rewrite pairs_app, filter_app, app_length. assert (E : filter (fun p : Z * list Z => fst p <? i) (pairs r) = []). { clear A. induction r as [|n r IH]; [ reflexivity |]. inversion B; subst. cbn [pairs map filter fst]. replace (key n <? i) with false by (symmetry; apply Z.ltb_ge; lia). now apply IH. }
  rewrite E. clear E B. induction q1 as [|n q1 IH]; [ reflexivity |]. inversion A; subst. cbn [pairs map filter fst]. replace (key n <? i) with true by (symmetry; apply Z.ltb_lt; lia). cbn [length plus] in *. f_equal. now apply IH.
Qed.
Lemma nth_set_same {A} (l : list A) k x y : nth_error l k = Some x -> nth_error (set l k y) k = Some y.
Proof. revert k. induction l as [|a l IH]; intros [|k] H; cbn in H; try discriminate; [ reflexivity |]. unfold set in *. cbn. now apply IH. Qed.
Lemma enter_spec s k m c : inv s -> nth_error (calls s) k = Some c -> c_awake c = true ->
  (fits s (c_idx c) (c_data c) -> exists o, snd (stp s (Enter k m)) = o ++ [Accepted (c_idx c) (c_data c) (Z.of_nat (length (filter (fun p => fst p <? c_idx c) (queued s))))] /\ accepted o = [] /\ Permutation (queued (fst (stp s (Enter k m)))) ((c_idx c, c_data c) :: others (c_idx c) (queued s))) /\
  (~ fits s (c_idx c) (c_data c) -> snd (stp s (Enter k m)) = if drop s then [Dropped (c_idx c)] else []) /\
  (~ fits s (c_idx c) (c_data c) -> queued (fst (stp s (Enter k m))) = queued s /\ (drop s = false -> nth_error (calls (fst (stp s (Enter k m)))) k = Some (In_queue (c_idx c) (c_data c) false))).
Proof.
  intros V N A. unfold step. rewrite (i_bad s V), N, (i_hung s V), A. cbn [orb negb]. unfold enter.
  pose proof (i_calls s V) as CC. rewrite Forall_forall in CC. destruct (CC c (nth_error_In _ _ N)) as (C1 & C2). set (i := c_idx c) in *. set (l := c_data c) in *. assert (L0 : 0 <= len l) by (unfold len; lia). rewrite (size_with_spec s i l V (conj L0 C2)). unfold fits. fold (len l).
  destruct (put_spec (q s) i (fresh s) l (i_sorted s V)) as (q1 & q2 & P1 & P2 & D).
  destruct (Z.leb_spec (total (others i (queued s)) + len l) (maxs s)) as [Fit|Fit]; (split; [ intro X | split; intro X ]); try (exfalso; lia).
  - cbn [fst snd]. eexists. split; [| split ].
    + do 2 f_equal. change (queued s) with (pairs (q s)). f_equal. destruct D as [(F & E & P) | (n & F & K & E & P)]; rewrite P, E.
      * pose proof (position_app q1 (Node i (fresh s) l) q2 P1) as PA. cbn [key] in PA. rewrite PA. rewrite filter_lower; [ reflexivity | exact P1 |]. eapply Forall_impl; [| exact P2 ]. cbn. intros. lia.
      * pose proof (position_app q1 (Node i (id n) l) q2 P1) as PA. cbn [key] in PA. rewrite PA. rewrite filter_lower; [ reflexivity | exact P1 |]. constructor; [ lia |]. eapply Forall_impl; [| exact P2 ]. cbn. intros. lia.
    + destruct (find (q s) i) as [n|]; [ destruct (existsb (reads (id n)) (workers s)) |]; reflexivity.
    + unfold queued. cbn [q]. fold (pairs (q s)). fold (pairs (put (q s) i (fresh s) l)). destruct D as [(F & E & P) | (n & F & K & E & P)]; rewrite P.
      * rewrite (others_none _ _ F), E, !pairs_app. cbn [pairs map key data]. apply Permutation_sym, Permutation_middle.
      * rewrite E, <- K. rewrite pairs_others by (rewrite K; assumption). rewrite !pairs_app. cbn [pairs map key data]. apply Permutation_sym, Permutation_middle.
  - destruct (drop s); reflexivity.
  - destruct (drop s); cbn [fst set_calls calls]; (split; [ reflexivity |]); [ discriminate |]. intros _. now apply nth_set_same with c.
Qed.
End S.
