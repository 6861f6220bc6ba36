From Coq Require Import ZArith List Bool Lia Sorted.
From Verif Require Import Lib.Grid Model.Slic Spec.Slic.
Import ListNotations.
Open Scope Z_scope.

(* ---------- paths ---------- *)
Lemma touching_sym p q : touching p q -> touching q p.
Proof. unfold touching. lia. Qed.

Lemma linked_end S p q : linked S p q -> S q.
Proof. intros H; destruct H; auto. Qed.

Lemma linked_begin S p q : linked S p q -> S p.
Proof. intros H; induction H; auto. Qed.

Lemma linked_mono (S T : pixel -> Prop) p q : (forall x, S x -> T x) -> linked S p q -> linked T p q.
Proof. intros H L. induction L; [constructor; auto|econstructor; eauto]. Qed.

Lemma linked_trans S p q r : linked S p q -> linked S q r -> linked S p r.
Proof. intros A B. induction B; auto. econstructor; eauto. Qed.

Lemma linked_sym S p q : linked S p q -> linked S q p.
Proof.
  intros L. induction L as [|q r L IH T Sr]; [constructor; auto|].
  apply (linked_trans _ _ q); [|exact IH].
  apply (linked_step _ _ r q); [constructor; auto|apply touching_sym; exact T|exact (linked_end _ _ _ L)].
Qed.

Lemma linked_first S p q : linked S p q -> p = q \/ exists r, touching p r /\ S r.
Proof.
  intros L. induction L as [|q r L IH T Sr]; [left; reflexivity|].
  right. destruct IH as [ -> | E ]; [|exact E]. exists r; auto.
Qed.

Lemma linked_inv (S : pixel -> Prop) p q (K : pixel -> Prop) : (forall a b, S a -> S b -> touching a b -> K a -> K b) -> K p -> linked S p q -> K q.
Proof. intros H Kp L. induction L as [|q r L IH T Sr]; auto. apply (H q r); auto. exact (linked_end _ _ _ L). Qed.

(* ---------- the model's helpers ---------- *)
Lemma pt_eqb_true p q : pt_eqb p q = true <-> p = q.
Proof.
  destruct p as [a b], q as [c d]. unfold pt_eqb; cbn [fst snd]. rewrite andb_true_iff, !Z.eqb_eq. split.
  - intros [ -> -> ]; reflexivity. - intros E; injection E; auto.
Qed.

Lemma set_same f p v : set f p v p = v.
Proof. unfold set. rewrite (proj2 (pt_eqb_true p p) eq_refl). reflexivity. Qed.

Lemma set_other f p v q : q <> p -> set f p v q = f q.
Proof. intros H. unfold set. destruct (pt_eqb q p) eqn:E; auto. apply pt_eqb_true in E. congruence. Qed.

Lemma inside_within h w p : inside h w p = true <-> within h w p.
Proof. unfold inside, within. rewrite !andb_true_iff, !Z.leb_le, !Z.ltb_lt. lia. Qed.

Lemma within_grid h w p : within h w p <-> In p (grid 0 h 0 w).
Proof. rewrite in_grid. unfold within. lia. Qed.

Lemma neighbours_touching p q : In q (neighbours p) <-> touching p q.
Proof.
  destruct p as [y x], q as [y2 x2]. unfold touching. cbn [neighbours In fst snd]. split.
  - intros [E|[E|[E|[E|[]]]]]; injection E; lia.
  - intros H.
    assert (C : y2 = y /\ x2 = x - 1 \/ y2 = y - 1 /\ x2 = x \/ y2 = y /\ x2 = x + 1 \/ y2 = y + 1 /\ x2 = x) by lia.
    destruct C as [[ -> -> ]|[[ -> -> ]|[[ -> -> ]|[ -> -> ]]]]; auto.
Qed.

Lemma pt_dec (p q : pt) : {p = q} + {p <> q}.
Proof. decide equality; apply Z.eq_dec. Qed.

Lemma paint_spec ps v f q : paint ps v f q = if in_dec pt_dec q ps then v else f q.
Proof.
  unfold paint. revert f. induction ps as [|p ps IH]; intros f; cbn [fold_left]; [reflexivity|].
  rewrite IH. destruct (in_dec pt_dec q ps) as [I|I]; destruct (in_dec pt_dec q (p :: ps)) as [J|J]; auto.
  - exfalso; apply J; right; auto.
  - destruct J as [ -> |J]; [apply set_same|contradiction].
  - apply set_other. intros ->. apply J; left; auto.
Qed.

(* ---------- the flood ---------- *)
Section Flood.
Context (h w : Z) (lab : image) (l0 : Z).

Definition free (f : image) (q : pt) : Prop := within h w q /\ f q = -1 /\ lab q = l0.

Lemma visit_spec label : 0 <= label -> forall ns f ps g, visit h w lab l0 label ns f = (ps, g) ->
  NoDup ps /\ (forall q, In q ps <-> In q ns /\ free f q) /\
  (forall q, In q ps -> g q = label) /\ (forall q, ~ In q ps -> g q = f q).
Proof.
  intros Hl. induction ns as [|n ns IH]; intros f ps g E; cbn [visit] in E.
  - injection E as <- <-. split; [constructor|]. split; [intros q; cbn; tauto|]. split; [intros q []|auto].
  - destruct (inside h w n && (f n =? -1) && (l0 =? lab n)) eqn:C.
    + apply andb_true_iff in C as [C C3]. apply andb_true_iff in C as [C1 C2].
      apply inside_within in C1. apply Z.eqb_eq in C2. apply Z.eqb_eq in C3.
      destruct (visit h w lab l0 label ns (set f n label)) as [ps' g'] eqn:V. injection E as <- <-.
      destruct (IH _ _ _ V) as (N & I & A & B).
      assert (Nn : ~ In n ps'). { intros X. apply I in X as (_ & _ & X & _). rewrite set_same in X. lia. }
      split; [constructor; auto|]. split; [|split].
      * intros q. cbn [In]. split.
        -- intros [ <- |X]; [split; [left; auto|split; auto]|].
           destruct (pt_dec q n) as [ -> |D]; [contradiction|].
           apply I in X as (X & Y & Z1 & Z2). rewrite set_other in Z1 by auto. split; [auto|split; auto].
        -- intros [X Y]. destruct (pt_dec q n) as [ -> |D]; [left; auto|]. right. apply I.
           destruct X as [X|X]; [congruence|]. split; auto. destruct Y as (Y1 & Y2 & Y3). split; auto. rewrite set_other; auto.
      * intros q [ <- |X]; [|auto]. rewrite B by auto. apply set_same.
      * intros q X. cbn [In] in X. rewrite B by tauto. apply set_other. intros ->; apply X; auto.
    + destruct (IH _ _ _ E) as (N & I & A & B). split; [auto|]. split; [|split; auto].
      intros q. rewrite I. cbn [In]. split; [tauto|]. intros [[ <- |X] Y]; [|auto]. exfalso.
      destruct Y as (Y1 & Y2 & Y3). rewrite (proj2 (inside_within _ _ _) Y1), Y2, Y3, !Z.eqb_refl in C. discriminate.
Qed.

Record FI (f0 : image) (label : Z) (p0 : pt) (todo P : list pt) (f : image) : Prop := {
  fi_nodup : NoDup P;
  fi_in : forall q, In q P -> free f0 q /\ linked (free f0) p0 q;
  fi_from : forall q, In q P -> exists r, touching r q /\ In r (p0 :: P);
  fi_new : forall q, In q P -> f q = label;
  fi_old : forall q, ~ In q P -> f q = f0 q;
  fi_todo : incl todo (p0 :: P);
  fi_done : forall q, In q (p0 :: P) -> In q todo \/ (forall r, touching q r -> free f0 r -> In r P)
}.

Lemma FI_small f0 label p0 todo P f : 0 <= h -> 0 <= w -> FI f0 label p0 todo P f -> (length P <= Z.to_nat (h * w))%nat.
Proof.
  intros Hh Hw F. apply Nat2Z.inj_le. rewrite Z2Nat.id by nia. rewrite <- (grid_length 0 h 0 w) by auto.
  apply inj_le. apply NoDup_incl_length; [exact (fi_nodup _ _ _ _ _ _ F)|].
  intros q I. apply within_grid. apply (fi_in _ _ _ _ _ _ F) in I as [[X _] _]. exact X.
Qed.

Lemma NoDup_app_disjoint {A} (a b : list A) : NoDup a -> NoDup b -> (forall x, In x a -> ~ In x b) -> NoDup (a ++ b).
Proof.
  induction a as [|x a IH]; intros Na Nb D; cbn; auto. inversion Na; subst. constructor.
  - rewrite in_app_iff. intros [X|X]; [contradiction|]. apply (D x); [left; auto|auto].
  - apply IH; auto. intros y Y. apply D. right; auto.
Qed.

Lemma FI_step f0 label p0 p todo P f ps g : 0 <= label -> free f0 p0 -> FI f0 label p0 (p :: todo) P f ->
  visit h w lab l0 label (neighbours p) f = (ps, g) -> FI f0 label p0 (todo ++ ps) (P ++ ps) g.
Proof.
  intros Hl F0 F V. destruct (visit_spec _ Hl _ _ _ _ V) as (N & I & A & B).
  assert (Fr : forall q, free f q <-> free f0 q /\ ~ In q P).
  { intros q. split.
    - intros (X1 & X2 & X3). destruct (in_dec pt_dec q P) as [J|J].
      + apply (fi_new _ _ _ _ _ _ F) in J. lia.
      + rewrite (fi_old _ _ _ _ _ _ F _ J) in X2. split; auto. split; auto.
    - intros ((X1 & X2 & X3) & J). split; auto. rewrite (fi_old _ _ _ _ _ _ F _ J). auto. }
  assert (Lp : linked (free f0) p0 p).
  { destruct (fi_todo _ _ _ _ _ _ F p (or_introl eq_refl)) as [ <- |X]; [constructor; auto|].
    exact (proj2 (fi_in _ _ _ _ _ _ F _ X)). }
  split.
  - apply NoDup_app_disjoint; [exact (fi_nodup _ _ _ _ _ _ F)|exact N|].
    intros x X Y. apply I in Y as [_ Y]. apply Fr in Y. tauto.
  - intros q. rewrite in_app_iff. intros [X|X]; [exact (fi_in _ _ _ _ _ _ F _ X)|].
    apply I in X as [X Y]. apply Fr in Y as [Y _]. split; [exact Y|].
    apply (linked_step _ _ p q Lp); [apply neighbours_touching; exact X|exact Y].
  - intros q. rewrite in_app_iff. intros [X|X].
    + destruct (fi_from _ _ _ _ _ _ F _ X) as (r & T & R). exists r. split; [exact T|].
      destruct R as [R|R]; [left; auto|right; rewrite in_app_iff; auto].
    + apply I in X as [X _]. exists p. split; [apply neighbours_touching; exact X|].
      destruct (fi_todo _ _ _ _ _ _ F p (or_introl eq_refl)) as [R|R]; [left; auto|right; rewrite in_app_iff; auto].
  - intros q. rewrite in_app_iff. intros X. destruct (in_dec pt_dec q ps) as [J|J]; [auto|].
    rewrite B by auto. destruct X as [X|X]; [|contradiction]. exact (fi_new _ _ _ _ _ _ F _ X).
  - intros q X. rewrite in_app_iff in X. rewrite B by tauto. apply (fi_old _ _ _ _ _ _ F). tauto.
  - intros q. rewrite in_app_iff. intros [X|X].
    + pose proof (fi_todo _ _ _ _ _ _ F q (or_intror X)) as Y. destruct Y as [Y|Y]; [left; auto|right; rewrite in_app_iff; auto].
    + right. rewrite in_app_iff; auto.
  - intros q X. rewrite in_app_iff.
    assert (Y : In q (p0 :: P) \/ In q ps). { destruct X as [X|X]; [left; left; auto|]. rewrite in_app_iff in X. destruct X; [left; right; auto|auto]. }
    destruct Y as [Y|Y]; [|left; right; exact Y].
    destruct (pt_dec q p) as [ -> |D].
    + right. intros r T Fq. rewrite in_app_iff. destruct (in_dec pt_dec r P) as [J|J]; [left; auto|].
      right. apply I. split; [apply neighbours_touching; auto|apply Fr; auto].
    + destruct (fi_done _ _ _ _ _ _ F q Y) as [[Z|Z]|Z]; [congruence|left; left; auto|].
      right. intros r T Fq. rewrite in_app_iff. left. auto.
Qed.

Lemma flood_runs f0 label p0 : 0 <= h -> 0 <= w -> 0 <= label -> free f0 p0 -> forall fuel todo P f,
  FI f0 label p0 todo P f -> (length todo + (Z.to_nat (h * w) - length P) < fuel)%nat ->
  exists P' g, flood h w lab fuel l0 label todo (p0 :: P) f = Some (p0 :: P', g) /\ FI f0 label p0 [] P' g.
Proof.
  intros Hh Hw Hl F0. induction fuel as [|fuel IH]; intros todo P f F L; [lia|].
  destruct todo as [|p todo].
  - exists P, f. split; [reflexivity|exact F].
  - cbn [flood]. destruct (visit h w lab l0 label (neighbours p) f) as [ps g] eqn:V.
    pose proof (FI_step _ _ _ _ _ _ _ _ _ Hl F0 F V) as F'.
    change ((p0 :: P) ++ ps) with (p0 :: (P ++ ps)).
    apply IH; [exact F'|]. pose proof (FI_small _ _ _ _ _ _ Hh Hw F') as X. rewrite !app_length in *. cbn [length] in L. lia.
Qed.

(* the flood from a free pixel collects its free component *)
Lemma flood_spec f0 label p0 : 0 <= h -> 0 <= w -> 0 <= label -> free f0 p0 ->
  exists P g, flood h w lab (S (S (Z.to_nat (h * w)))) l0 label [p0] [p0] f0 = Some (p0 :: P, g) /\
    NoDup P /\ (forall q, In q (p0 :: P) <-> linked (free f0) p0 q) /\
    (forall q, In q P -> g q = label) /\ (forall q, ~ In q P -> g q = f0 q) /\
    (In p0 P /\ (2 <= length P)%nat \/ P = []).
Proof.
  intros Hh Hw Hl F0.
  assert (F : FI f0 label p0 [p0] [] f0).
  { split; [constructor|intros q []|intros q []|intros q []|auto|intros q X; exact X|intros q X; left; exact X]. }
  destruct (flood_runs f0 label p0 Hh Hw Hl F0 (S (S (Z.to_nat (h * w)))) [p0] [] f0 F) as (P & g & E & G); [cbn [length]; lia|].
  exists P, g. split; [exact E|]. split; [exact (fi_nodup _ _ _ _ _ _ G)|].
  assert (C : forall q r, In q (p0 :: P) -> touching q r -> free f0 r -> In r P).
  { intros q r X. destruct (fi_done _ _ _ _ _ _ G q X) as [[]|Y]. apply Y. }
  assert (Q : forall q, In q (p0 :: P) <-> linked (free f0) p0 q).
  { intros q. split.
    - intros [ <- |X]; [constructor; exact F0|exact (proj2 (fi_in _ _ _ _ _ _ G _ X))].
    - intros L. induction L as [|q r L IH T Fr]; [left; auto|right]. exact (C q r IH T Fr). }
  split; [exact Q|]. split; [exact (fi_new _ _ _ _ _ _ G)|]. split; [exact (fi_old _ _ _ _ _ _ G)|].
  destruct P as [|q P]; [right; reflexivity|left].
  assert (X : exists r, touching p0 r /\ In r (q :: P)).
  { destruct (pt_dec q p0) as [D|D].
    - destruct (fi_from _ _ _ _ _ _ G q (or_introl eq_refl)) as (r & T & R). exists r. rewrite D in T. split; [apply touching_sym; exact T|].
      destruct R as [R|R]; [|exact R]. exfalso. rewrite <- R in T. unfold touching in T. lia.
    - destruct (linked_first _ _ _ (proj2 (fi_in _ _ _ _ _ _ G q (or_introl eq_refl)))) as [X|(r & T & R)]; [congruence|].
      exists r. split; [exact T|]. exact (C p0 r (or_introl eq_refl) T R). }
  destruct X as (r & T & R).
  assert (I0 : In p0 (q :: P)) by exact (C r p0 (or_intror R) (touching_sym _ _ T) F0).
  split; [exact I0|].
  assert (D : p0 <> r) by (intros ->; unfold touching in T; lia).
  change 2%nat with (length [p0; r]). apply NoDup_incl_length.
  - apply NoDup_cons; [intros [X|[]]; congruence|apply NoDup_cons; [intros []|apply NoDup_nil]].
  - intros x [ <- |[ <- |[]]]; auto.
Qed.
End Flood.

(* ---------- raster order ---------- *)
Definition before (p q : Z * Z) : Prop := fst p < fst q \/ fst p = fst q /\ snd p < snd q.

Lemma zseq_sorted a n : StronglySorted Z.lt (zseq a n).
Proof.
  revert a. induction n as [|n IH]; intros a; [constructor|]. rewrite zseq_S. constructor; [apply IH|].
  apply Forall_forall. intros x X. apply in_zseq in X. lia.
Qed.

Lemma prod_sorted : forall l m, StronglySorted Z.lt l -> StronglySorted Z.lt m -> StronglySorted before (list_prod l m).
Proof.
  induction l as [|a l IH]; intros m Sl Sm; cbn [list_prod]; [constructor|].
  inversion Sl as [|? ? Sl' Fa]; subst. specialize (IH m Sl' Sm).
  assert (G : forall k, StronglySorted Z.lt k -> incl k m -> StronglySorted before (map (fun y => (a, y)) k ++ list_prod l m)).
  { induction k as [|y k IK]; intros Sk Ik; cbn [map app]; [exact IH|]. inversion Sk as [|? ? Sk' Fy]; subst. constructor.
    - apply IK; auto. intros z Z0. apply Ik. right; auto.
    - apply Forall_forall. intros q Q. apply in_app_iff in Q as [Q|Q].
      + apply in_map_iff in Q as (z & <- & Z0). rewrite Forall_forall in Fy. right. cbn. split; auto.
      + destruct q as [b z]. apply in_prod_iff in Q as [Q _]. rewrite Forall_forall in Fa. left. cbn. auto. }
  apply G; auto. apply incl_refl.
Qed.

Lemma grid_sorted y h x w : StronglySorted before (grid y h x w).
Proof. apply prod_sorted; apply zseq_sorted. Qed.

Lemma sorted_split {A} (R : A -> A -> Prop) pre p post q : StronglySorted R (pre ++ p :: post) -> In q (pre ++ p :: post) ->
  In q pre \/ q = p \/ R p q.
Proof.
  induction pre as [|a pre IH]; cbn [app]; intros S I; inversion S as [|? ? S' F]; subst.
  - right. destruct I as [ <- |I]; [left; auto|right]. rewrite Forall_forall in F. auto.
  - destruct I as [ <- |I]; [left; left; auto|]. destruct (IH S' I) as [X|X]; [left; right; auto|right; auto].
Qed.

Lemma raster_touch h w pre p post : grid 0 h 0 w = pre ++ p :: post -> pre = [] \/ exists q, In q pre /\ touching p q.
Proof.
  intros E. pose proof (grid_sorted 0 h 0 w) as S.
  assert (Ip : In p (grid 0 h 0 w)) by (rewrite E, in_app_iff; right; left; auto).
  assert (K : forall q, In q (grid 0 h 0 w) -> before q p -> In q pre).
  { intros q I B. rewrite E in S, I. destruct (sorted_split _ _ _ _ _ S I) as [X|[ -> |X]]; auto; unfold before in *; lia. }
  rewrite in_grid in Ip. destruct p as [y x]. cbn [fst snd] in Ip.
  destruct (Z.eq_dec x 0) as [ -> |Hx].
  - destruct (Z.eq_dec y 0) as [ -> |Hy].
    + left. destruct pre as [|a pre]; auto. exfalso.
      assert (Ia : In a (grid 0 h 0 w)) by (rewrite E; left; auto). rewrite in_grid in Ia.
      rewrite E in S. cbn [app] in S. inversion S as [|? ? _ F]; subst. rewrite Forall_forall in F.
      assert (X : before a (0, 0)) by (apply F; rewrite in_app_iff; right; left; auto). unfold before in X; cbn in X. lia.
    + right. exists (y - 1, 0). split; [apply K|unfold touching; cbn; lia]; [rewrite in_grid; cbn; lia|left; cbn; lia].
  - right. exists (y, x - 1). split; [apply K|unfold touching; cbn; lia]; [rewrite in_grid; cbn; lia|right; cbn; lia].
Qed.

(* ---------- sizes ---------- *)
Lemma size_unique S a b : has_size S a -> has_size S b -> a = b.
Proof.
  intros (l & Nl & Il & <-) (m & Nm & Im & <-). f_equal. apply Nat.le_antisymm; apply NoDup_incl_length; auto; intros x X.
  - apply Im, Il, X. - apply Il, Im, X.
Qed.

Lemma size_ext S T n : (forall q, S q <-> T q) -> has_size S n -> has_size T n.
Proof. intros H (l & N & I & L). exists l. split; [auto|]. split; [|auto]. intros q. rewrite I. apply H. Qed.

Section Main.
Context (h w : Z) (lab : image) (lim : Z).
Hypothesis Hh : 0 <= h.
Hypothesis Hw : 0 <= w.
Let comp := component h w lab.

Definition big (p : pt) : Prop := exists n, has_size (comp p) n /\ Z.max 2 lim <= n.

Lemma comp_lab p q : comp p q -> lab q = lab p.
Proof. intros L. apply linked_end in L. exact (proj2 L). Qed.

Lemma comp_refl p : within h w p -> comp p p.
Proof. intros X. constructor. split; auto. Qed.

Lemma comp_sym p q : comp p q -> comp q p.
Proof. intros L. unfold comp, component. rewrite (comp_lab _ _ L). apply linked_sym. exact L. Qed.

Lemma comp_trans p q r : comp p q -> comp q r -> comp p r.
Proof. intros A B. unfold comp, component in *. rewrite (comp_lab _ _ A) in B. eapply linked_trans; eauto. Qed.

Lemma comp_touch p q r : comp p q -> within h w r -> touching q r -> lab r = lab q -> comp p r.
Proof. intros A B T E. apply (linked_step _ _ q r A T). split; auto. rewrite E. apply comp_lab. exact A. Qed.

Lemma comp_within p q : comp p q -> within h w q.
Proof. intros L. apply linked_end in L. exact (proj1 L). Qed.

Lemma big_comp p q : comp p q -> big p -> big q.
Proof.
  intros C (n & N & L). exists n. split; auto. apply (size_ext (comp p)); auto.
  intros x. split; intros X; [apply (comp_trans _ p); auto; apply comp_sym; auto|apply (comp_trans _ q); auto].
Qed.

(* the labelling done so far, with [m] large components seen *)
Record Good (f : image) (m : Z) : Prop := {
  g_num : 0 <= m;
  g_range : forall p, within h w p -> f p = -1 \/ 0 <= f p < Z.max 1 m;
  g_same : forall p q, within h w p -> within h w q -> touching p q -> lab p = lab q -> f p = f q;
  g_conn : forall p q, within h w p -> within h w q -> 0 <= f p -> f q = f p -> linked (region h w f (f p)) p q;
  g_big : forall p q, within h w p -> within h w q -> 0 <= f p -> big p -> big q -> f p = f q -> comp p q;
  g_lt : forall p, within h w p -> big p -> 0 <= f p -> f p < m;
  g_own : forall k, 0 <= k < m -> exists p, within h w p /\ big p /\ f p = k;
  g_small : forall p, within h w p -> 0 <= f p -> ~ big p ->
    (exists q, within h w q /\ f q = f p /\ ~ comp p q) \/ (forall q, within h w q -> 0 <= f q -> comp p q)
}.

Lemma Good_start : Good (fun _ => -1) 0.
Proof. split; intros; auto; lia. Qed.

Lemma same_comp f m p q : Good f m -> comp p q -> f q = f p.
Proof.
  intros G L. induction L as [|q r L IH T R]; auto. rewrite <- IH. symmetry.
  apply (g_same _ _ G); [exact (comp_within p q L)|exact (proj1 R)|exact T|]. rewrite (proj2 R). exact (comp_lab _ _ L).
Qed.

(* giving the label v to a whole unlabelled component *)
Lemma Good_add f m p v g m' : Good f m -> within h w p -> f p = -1 ->
  (forall q, within h w q -> comp p q -> g q = v) -> (forall q, within h w q -> ~ comp p q -> g q = f q) ->
  0 <= v ->
  (m' = m /\ ~ big p /\ v < Z.max 1 m \/ m' = m + 1 /\ big p /\ v = m) ->
  ((forall q, within h w q -> f q <> v) \/ exists q, within h w q /\ touching p q /\ f q = v) ->
  (~ big p -> (forall q, within h w q -> f q = -1) \/ exists q, within h w q /\ f q = v) ->
  (forall q, comp p q \/ ~ comp p q) -> Good g m'.
Proof.
  intros G Wp Fp In_ Out Hv Hm Ht Hs Dec.
  assert (Cm : forall q, comp p q -> f q = -1) by (intros q L; rewrite (same_comp _ _ _ _ G L); auto).
  assert (Ge : forall q, within h w q -> 0 <= f q -> g q = f q).
  { intros q Wq Q. apply Out; auto. intros C. apply Cm in C. lia. }
  assert (Up : forall x y k, 0 <= k -> linked (region h w f k) x y -> linked (region h w g k) x y).
  { intros x y k Hk. apply linked_mono. intros z [Z1 Z2]. split; auto. rewrite Ge; auto. lia. }
  assert (Cv : forall x y, comp p x -> comp p y -> linked (region h w g v) x y).
  { intros x y X Y. assert (L : comp x y) by (apply (comp_trans _ p); [apply comp_sym|]; auto).
    assert (K : forall z, comp x z -> linked (region h w g v) x z).
    { intros z Lz. induction Lz as [|z z' Lz IH T R].
      - constructor. split; [exact (comp_within p x X)|]. apply In_; auto. exact (comp_within p x X).
      - apply (linked_step _ _ z z' IH T). split; [exact (proj1 R)|]. apply In_; [exact (proj1 R)|].
        apply (comp_trans _ x); auto. apply (linked_step _ _ z z' Lz T R). }
    apply K; exact L. }
  pose proof (g_num _ _ G) as Gn.
  assert (Bg : big p -> m' = m + 1 /\ v = m) by (intros B; destruct Hm as [(_ & N & _)|(E1 & _ & E2)]; [contradiction|auto]).
  assert (Mle : m <= m') by (destruct Hm as [( -> & _)|( -> & _)]; lia).
  split.
  - lia.
  - intros q Wq. destruct (Dec q) as [C|C].
    + rewrite (In_ q Wq C). right. destruct Hm as [( -> & _ & X)|( -> & _ & X)]; lia.
    + rewrite (Out q Wq C). destruct (g_range _ _ G q Wq) as [X|X]; [left; auto|right; lia].
  - intros x y Wx Wy T E. destruct (Dec x) as [C|C].
    + rewrite (In_ x Wx C), (In_ y Wy); auto. apply (comp_touch _ x); auto.
    + rewrite (Out x Wx C), (Out y Wy); [apply (g_same _ _ G); auto|].
      intros D. apply C. apply (comp_touch _ y); auto. apply touching_sym; auto.
  - assert (Mix : forall x y, comp p x -> within h w y -> ~ comp p y -> f y = v -> linked (region h w g v) x y).
    { intros x y X Wy Y E. destruct Ht as [Ht|(q & Wq & T & Q)]; [exfalso; apply (Ht y Wy E)|].
      apply (linked_trans _ _ p); [apply Cv; auto; apply comp_refl; auto|].
      apply (linked_trans _ _ q).
      - apply (linked_step _ _ p q); [constructor; split; auto; apply In_; auto; apply comp_refl; auto|exact T|].
        split; auto. rewrite Ge; auto. lia.
      - apply Up; auto. rewrite <- Q. apply (g_conn _ _ G); auto; lia. }
    intros x y Wx Wy X E. destruct (Dec x) as [C|C]; destruct (Dec y) as [D|D].
    + rewrite (In_ x Wx C). apply Cv; auto.
    + rewrite (In_ x Wx C) in *. rewrite (Out y Wy D) in E. apply Mix; auto.
    + rewrite (In_ y Wy D) in E. rewrite <- E. apply linked_sym. apply Mix; auto. rewrite (Out x Wx C) in E. auto.
    + rewrite (Out x Wx C) in *. rewrite (Out y Wy D) in E. apply Up; auto. apply (g_conn _ _ G); auto.
  - intros x y Wx Wy X Bx By E. destruct (Dec x) as [C|C]; destruct (Dec y) as [D|D].
    + apply (comp_trans _ p); [apply comp_sym; auto|auto].
    + exfalso. rewrite (In_ x Wx C), (Out y Wy D) in E. destruct (Bg (big_comp _ _ (comp_sym _ _ C) Bx)) as [_ ->].
      pose proof (g_lt _ _ G y Wy By). lia.
    + exfalso. rewrite (Out x Wx C), (In_ y Wy D) in E. destruct (Bg (big_comp _ _ (comp_sym _ _ D) By)) as [_ ->].
      rewrite (Out x Wx C) in X. pose proof (g_lt _ _ G x Wx Bx). lia.
    + rewrite (Out x Wx C) in *. rewrite (Out y Wy D) in E. apply (g_big _ _ G); auto.
  - intros x Wx Bx X. destruct (Dec x) as [C|C].
    + rewrite (In_ x Wx C). destruct (Bg (big_comp _ _ (comp_sym _ _ C) Bx)). lia.
    + rewrite (Out x Wx C) in *. pose proof (g_lt _ _ G x Wx Bx X). lia.
  - intros k K. destruct (Z.lt_ge_cases k m) as [L|L].
    + destruct (g_own _ _ G k) as (q & Wq & Bq & Q); [lia|]. exists q. split; auto. split; auto. rewrite Ge; auto. lia.
    + destruct Hm as [( -> & _)|( -> & B & -> )]; [lia|]. exists p. split; auto. split; auto.
      rewrite (In_ p Wp (comp_refl p Wp)). lia.
  - intros x Wx X Nx. destruct (Dec x) as [C|C].
    + rewrite (In_ x Wx C). assert (Np : ~ big p) by (intros B; apply Nx; exact (big_comp p x C B)).
      destruct (Hs Np) as [Hz|(q & Wq & Q)].
      * right. intros q Wq Q. destruct (Dec q) as [D|D]; [apply (comp_trans _ p); [apply comp_sym; auto|auto]|].
        rewrite (Out q Wq D), (Hz q Wq) in Q. lia.
      * left. exists q. split; auto. split; [rewrite Ge; auto; lia|]. intros D.
        assert (comp p q) as K by (apply (comp_trans _ x); auto). apply Cm in K. lia.
    + rewrite (Out x Wx C) in *. destruct (g_small _ _ G x Wx X Nx) as [(q & Wq & Q & D)|All].
      * left. exists q. split; auto. split; [|auto]. rewrite Ge; auto. lia.
      * left. exists p. split; auto.
        assert (M0 : m = 0).
        { destruct (Z.eq_dec m 0); auto. exfalso. destruct (g_own _ _ G 0) as (o & Wo & Bo & Fo); [lia|].
          apply Nx. apply (big_comp o x); auto. apply comp_sym. apply All; auto. lia. }
        split; [|intros D; apply C; apply comp_sym; auto].
        rewrite (In_ p Wp (comp_refl p Wp)). destruct (g_range _ _ G x Wx); [lia|]. destruct Hm as [(_ & _ & ?)|(_ & _ & ?)]; lia.
Qed.

Lemma free_comp f m p : Good f m -> within h w p -> f p = -1 -> forall q, linked (free h w lab (lab p) f) p q <-> comp p q.
Proof.
  intros G Wp Fp q. split; intros L.
  - apply (linked_mono (free h w lab (lab p) f)); [|exact L]. intros x (X1 & X2 & X3). split; auto.
  - induction L as [|q r L IH T R]; [constructor; split; auto|].
    apply (linked_step _ _ q r IH T). split; [exact (proj1 R)|]. split; [|exact (proj2 R)].
    rewrite (same_comp f m p r G); auto. apply (linked_step _ _ q r L T R).
Qed.

Lemma adjacent_label_spec f p : forall a,
  (exists q, touching p q /\ within h w q /\ 0 <= f q /\ adjacent_label h w f p a = f q) \/
  (adjacent_label h w f p a = a /\ forall q, touching p q -> within h w q -> f q < 0).
Proof.
  intros a. unfold adjacent_label.
  assert (K : forall ns a, (exists q, In q ns /\ within h w q /\ 0 <= f q /\ fold_left (fun a q => if inside h w q && (0 <=? f q) then f q else a) ns a = f q) \/
    (fold_left (fun a q => if inside h w q && (0 <=? f q) then f q else a) ns a = a /\ forall q, In q ns -> within h w q -> f q < 0)).
  { induction ns as [|n ns IH]; intros b; cbn [fold_left]; [right; split; auto; intros q []|].
    destruct (IH (if inside h w n && (0 <=? f n) then f n else b)) as [(q & Q1 & Q)|(E & N)].
    - left. exists q. split; [right; auto|exact Q].
    - destruct (inside h w n && (0 <=? f n)) eqn:C.
      + apply andb_true_iff in C as [C1 C2]. apply inside_within in C1. apply Z.leb_le in C2.
        left. exists n. split; [left; auto|]. auto.
      + right. split; auto. intros q [ <- |Q] Wq; [|auto]. rewrite (proj2 (inside_within _ _ _) Wq) in C. cbn in C. apply Z.leb_gt in C. lia. }
  destruct (K (neighbours p) a) as [(q & Q1 & Q)|(E & N)]; [left; exists q; split; [apply neighbours_touching|]; auto|right].
  split; auto. intros q T. apply N. apply neighbours_touching. auto.
Qed.

Record J (pre : list pt) (s : state) : Prop := {
  j_good : Good (new s) (label s);
  j_adj : 0 <= adj s < Z.max 1 (label s);
  j_pre : forall p, In p pre -> 0 <= new s p;
  j_first : pre = [] -> s = start
}.

Hypothesis Hlim : 1 <= lim.

Lemma step_J pre p post s : grid 0 h 0 w = pre ++ p :: post -> J pre s -> exists s', step h w lab lim p s = Some s' /\ J (pre ++ [p]) s'.
Proof.
  intros E [G A P F]. assert (Wp : within h w p) by (apply within_grid; rewrite E, in_app_iff; right; left; auto).
  assert (Wpre : forall q, In q pre -> within h w q) by (intros q Q; apply within_grid; rewrite E, in_app_iff; auto).
  unfold step. destruct (new s p =? -1) eqn:N.
  2:{ exists s. split; auto. apply Z.eqb_neq in N. split; auto.
      - intros q Q. apply in_app_iff in Q as [Q|[ <- |[]]]; auto. destruct (g_range _ _ G p Wp); lia.
      - intros X. destruct pre; discriminate X. }
  apply Z.eqb_eq in N. pose proof (g_num _ _ G) as Gn.
  destruct (flood_spec h w lab (lab p) (new s) (label s) p Hh Hw Gn) as (Q & g & Fl & Nd & Mem & Gin & Gout & Sz); [split; auto|].
  rewrite Fl.
  assert (MemC : forall q, In q (p :: Q) <-> comp p q) by (intros q; rewrite Mem; apply (free_comp _ _ _ G Wp N)).
  assert (Dec : forall q, comp p q \/ ~ comp p q).
  { intros q. destruct (in_dec pt_dec q (p :: Q)) as [I|I]; rewrite MemC in I; auto. }
  set (a := adjacent_label h w (new s) p (adj s)).
  assert (HA : 0 <= a < Z.max 1 (label s) /\ ((forall q, within h w q -> new s q <> a) \/ exists q, within h w q /\ touching p q /\ new s q = a) /\
     ((forall q, within h w q -> new s q = -1) \/ exists q, within h w q /\ touching p q /\ 0 <= new s q) /\
     ((forall q, within h w q -> new s q = -1) \/ exists q, within h w q /\ new s q = a)).
  { destruct (raster_touch _ _ _ _ _ E) as [Ep|(q & Iq & Tq)].
    - specialize (F Ep). subst s. unfold a. destruct (adjacent_label_spec (new start) p (adj start)) as [(q & _ & _ & X & _)|(X & _)]; [cbn in X; lia|].
      rewrite X. cbn. split; [lia|]. split; [|split]; left; intros; lia.
    - unfold a. destruct (adjacent_label_spec (new s) p (adj s)) as [(q' & T' & W' & X & Y)|(_ & X)].
      + rewrite Y. split; [|split; [|split]].
        * destruct (g_range _ _ G q' W'); lia.
        * right. exists q'. auto.
        * right. exists q'. auto.
        * right. exists q'. auto.
      + specialize (X q Tq (Wpre q Iq)). specialize (P q Iq). lia. }
  destruct HA as (Ra & Ta & Tb & Tc).
  assert (SzC : has_size (comp p) (Z.of_nat (length Q)) /\ In p Q /\ (2 <= length Q)%nat \/ has_size (comp p) 1 /\ Q = []).
  { destruct Sz as [[I L]| -> ].
    - left. split; [|auto]. exists Q. split; auto. split; auto. intros q. rewrite <- MemC. cbn [In]. split; [auto|]. intros [ <- |X]; auto.
    - right. split; auto. exists [p]. split; [constructor; [intros []|constructor]|]. split; auto. }
  cbn [length]. destruct (Z.of_nat (S (length Q)) <=? lim) eqn:C.
  - apply Z.leb_le in C. eexists. split; [reflexivity|].
    assert (Pt : forall q, paint (p :: Q) a g q = if in_dec pt_dec q (p :: Q) then a else g q) by (intros q; apply paint_spec).
    assert (Gn' : Good (paint (p :: Q) a g) (label s)).
    { apply (Good_add (new s) (label s) p a); auto; try lia.
      - intros q Wq I. rewrite Pt. apply MemC in I. destruct (in_dec pt_dec q (p :: Q)); [auto|contradiction].
      - intros q Wq I. rewrite Pt. rewrite <- MemC in I. destruct (in_dec pt_dec q (p :: Q)); [contradiction|].
        apply Gout. intros X. apply I. right; auto.
      - left. split; auto. split; [|lia]. intros (n & Sn & Ln).
        destruct SzC as [(S1 & _)|(S1 & _)]; pose proof (size_unique _ _ _ S1 Sn); lia. }
    split; cbn [new label adj]; auto.
    + intros q I. rewrite Pt. destruct (in_dec pt_dec q (p :: Q)) as [X|X]; [lia|].
      rewrite Gout by (intros Y; apply X; right; auto). apply in_app_iff in I as [I|[ <- |[]]]; [auto|]. exfalso. apply X. left; auto.
    + intros X. destruct pre; discriminate X.
  - apply Z.leb_gt in C. destruct SzC as [(S1 & I & L)|(_ & -> )]; [|cbn in C; lia].
    eexists. split; [reflexivity|].
    assert (MemQ : forall q, In q Q <-> comp p q).
    { intros q. rewrite <- MemC. cbn [In]. split; [auto|]. intros [ <- |X]; auto. }
    assert (Bp : big p) by (exists (Z.of_nat (length Q)); split; [exact S1|lia]).
    assert (Gn' : Good g (label s + 1)).
    { apply (Good_add (new s) (label s) p (label s)); auto; try lia.
      - intros q Wq X. apply Gin. apply MemQ. auto.
      - intros q Wq X. apply Gout. rewrite MemQ. auto.
      - destruct Tb as [Tb|(q & Wq & T & X)].
        + left. intros q Wq. rewrite (Tb q Wq). lia.
        + destruct (Z.eq_dec (label s) 0) as [L0|L0].
          * right. exists q. split; auto. split; auto. destruct (g_range _ _ G q Wq); lia.
          * left. intros r Wr Y. destruct (g_range _ _ G r Wr); lia.
      - intros X. contradiction. }
    split; cbn [new label adj]; auto.
    + lia.
    + intros q X. destruct (in_dec pt_dec q Q) as [Y|Y]; [rewrite Gin by auto; lia|rewrite Gout by auto].
      apply in_app_iff in X as [X|[ <- |[]]]; [auto|contradiction].
    + intros X. destruct pre; discriminate X.
Qed.

Lemma scan_J : forall post pre s, grid 0 h 0 w = pre ++ post -> J pre s -> exists s', scan h w lab lim post s = Some s' /\ J (grid 0 h 0 w) s'.
Proof.
  induction post as [|p post IH]; intros pre s E HJ; cbn [scan].
  - rewrite app_nil_r in E. rewrite E. exists s. auto.
  - destruct (step_J pre p post s E HJ) as (s' & Es & HJ'). rewrite Es. apply (IH (pre ++ [p])); auto.
    rewrite <- app_assoc. exact E.
Qed.

Lemma enforce_spec : exists f n, enforce h w lab lim = Some (f, n) /\ Good f n /\ forall p, within h w p -> 0 <= f p.
Proof.
  destruct (scan_J (grid 0 h 0 w) [] start eq_refl) as (s & E & HJ).
  - split; cbn; auto; [exact Good_start|lia|intros p []].
  - exists (new s), (label s). unfold enforce. rewrite E. split; auto. split; [exact (j_good _ _ HJ)|].
    intros p Wp. apply (j_pre _ _ HJ). apply within_grid. auto.
Qed.
End Main.

(* ---------- without a size limit: one-pixel components are lost ---------- *)
Section Zero.
Context (h w : Z) (lab : image) (lim : Z).
Hypothesis Hh : 0 <= h.
Hypothesis Hw : 0 <= w.
Hypothesis Hlim : lim <= 0.
Let comp := component h w lab.

Record Z0 (pre : list pt) (s : state) : Prop := {
  z_num : 0 <= label s;
  z_range : forall p, within h w p -> new s p = -1 \/ 0 <= new s p < label s;
  z_same : forall p q, comp p q -> new s q = new s p;
  z_diff : forall p q, within h w p -> within h w q -> 0 <= new s p -> new s p = new s q -> comp p q;
  z_size : forall p, within h w p -> 0 <= new s p -> exists n, has_size (comp p) n /\ 2 <= n;
  z_lost : forall p, In p pre -> new s p = -1 -> has_size (comp p) 1
}.

Lemma step_Z0 pre p s : within h w p -> Z0 pre s -> exists s', step h w lab lim p s = Some s' /\ Z0 (pre ++ [p]) s'.
Proof.
  intros Wp [G1 G2 G3 G4 G5 G6]. unfold step. destruct (new s p =? -1) eqn:N.
  2:{ exists s. split; auto. apply Z.eqb_neq in N. split; auto. intros q Q X. apply in_app_iff in Q as [Q|[ <- |[]]]; auto. lia. }
  apply Z.eqb_eq in N.
  destruct (flood_spec h w lab (lab p) (new s) (label s) p Hh Hw G1) as (Q & g & Fl & Nd & Mem & Gin & Gout & Sz); [split; auto|].
  rewrite Fl. cbn [length]. destruct (Z.of_nat (S (length Q)) <=? lim) eqn:C; [apply Z.leb_le in C; lia|clear C].
  eexists. split; [reflexivity|].
  assert (MemC : forall q, In q (p :: Q) <-> comp p q).
  { intros q. rewrite Mem. split; intros L.
    - apply (linked_mono (free h w lab (lab p) (new s))); [|exact L]. intros x (X1 & X2 & X3). split; auto.
    - induction L as [|q r L IH T R]; [constructor; split; auto|].
      apply (linked_step _ _ q r IH T). split; [exact (proj1 R)|]. split; [|exact (proj2 R)].
      rewrite (G3 p r); auto. apply (linked_step _ _ q r L T R). }
  destruct Sz as [[I L]| -> ].
  - assert (MemQ : forall q, In q Q <-> comp p q).
    { intros q. rewrite <- MemC. cbn [In]. split; [auto|]. intros [ <- |X]; auto. }
    assert (Sp : has_size (comp p) (Z.of_nat (length Q))) by (exists Q; split; auto).
    split; cbn [new label]; try lia.
    + intros q Wq. destruct (in_dec pt_dec q Q) as [J|J]; [rewrite Gin by auto; lia|rewrite Gout by auto]. destruct (G2 q Wq); lia.
    + intros x y X. destruct (in_dec pt_dec x Q) as [Y|Y].
      * rewrite (Gin x Y), (Gin y); auto. apply MemQ. apply MemQ in Y. exact (comp_trans h w lab p x y Y X).
      * rewrite (Gout x Y), (Gout y); [auto|]. intros Z. apply Y. apply MemQ. apply MemQ in Z.
        exact (comp_trans h w lab p y x Z (comp_sym h w lab x y X)).
    + intros x y Wx Wy X E. destruct (in_dec pt_dec x Q) as [Y|Y]; destruct (in_dec pt_dec y Q) as [Y'|Y'].
      * apply MemQ in Y. apply MemQ in Y'. exact (comp_trans h w lab x p y (comp_sym h w lab p x Y) Y').
      * rewrite (Gin x Y), (Gout y Y') in E. destruct (G2 y Wy); lia.
      * rewrite (Gout x Y), (Gin y Y') in E. destruct (G2 x Wx); lia.
      * rewrite (Gout x Y) in *. rewrite (Gout y Y') in E. auto.
    + intros x Wx X. destruct (in_dec pt_dec x Q) as [Y|Y].
      * exists (Z.of_nat (length Q)). split; [|lia]. apply MemQ in Y. apply (size_ext (comp p)); auto. intros q. split; intros Z.
        -- exact (comp_trans h w lab x p q (comp_sym h w lab p x Y) Z).
        -- exact (comp_trans h w lab p x q Y Z).
      * rewrite (Gout x Y) in X. auto.
    + intros x X E. destruct (in_dec pt_dec x Q) as [Y|Y]; [rewrite Gin in E by auto; lia|].
      rewrite (Gout x Y) in E. apply in_app_iff in X as [X|[ <- |[]]]; [auto|contradiction].
  - assert (Gs : forall q, g q = new s q) by (intros q; apply Gout; intros []).
    assert (Sp : has_size (comp p) 1) by (exists [p]; split; [constructor; [intros []|constructor]|split; auto]).
    split; cbn [new label]; try lia.
    + intros q Wq. rewrite Gs. destruct (G2 q Wq); lia.
    + intros x y X. rewrite !Gs. auto.
    + intros x y Wx Wy. rewrite !Gs. auto.
    + intros x Wx. rewrite Gs. auto.
    + intros x X. rewrite Gs. apply in_app_iff in X as [X|[ <- |[]]]; auto.
Qed.

Lemma scan_Z0 : forall post pre s, grid 0 h 0 w = pre ++ post -> Z0 pre s -> exists s', scan h w lab lim post s = Some s' /\ Z0 (grid 0 h 0 w) s'.
Proof.
  induction post as [|p post IH]; intros pre s E HJ; cbn [scan].
  - rewrite app_nil_r in E. rewrite E. exists s. auto.
  - destruct (step_Z0 pre p s) as (s' & Es & HJ'); auto.
    + apply within_grid. rewrite E, in_app_iff. right; left; auto.
    + rewrite Es. apply (IH (pre ++ [p])); auto. rewrite <- app_assoc. exact E.
Qed.

Lemma enforce_zero : exists f n, enforce h w lab lim = Some (f, n) /\
  (forall p, within h w p -> (f p = -1 <-> has_size (comp p) 1)) /\
  (forall p q, within h w p -> within h w q -> 0 <= f p -> (f p = f q <-> comp p q)) /\
  (forall p, within h w p -> f p = -1 \/ 0 <= f p < n).
Proof.
  destruct (scan_Z0 (grid 0 h 0 w) [] start eq_refl) as (s & E & [G1 G2 G3 G4 G5 G6]).
  - split; cbn; auto; lia.
  - exists (new s), (label s). unfold enforce. rewrite E. split; auto. split; [|split; [|exact G2]].
    + intros p Wp. split; [apply G6; apply within_grid; auto|]. intros S1.
      destruct (G2 p Wp) as [X|X]; auto. destruct (G5 p Wp) as (n & Sn & L); [lia|]. pose proof (size_unique _ _ _ S1 Sn). lia.
    + intros p q Wp Wq P. split; [apply G4; auto|]. intros C. symmetry. apply G3. auto.
Qed.
End Zero.

(* ---------- the size limit ---------- *)
Lemma div_up_bounds a b : 0 < b -> b * (div_up a b - 1) < a <= b * div_up a b.
Proof.
  intros B. unfold div_up. pose proof (Z.div_mod a b ltac:(lia)). pose proof (Z.mod_pos_bound a b B).
  destruct (a mod b =? 0) eqn:E; [apply Z.eqb_eq in E|apply Z.eqb_neq in E]; nia.
Qed.

Lemma lims_positive w h d : 3 <= d -> 2 <= w -> 2 <= h -> 1 <= lims w h (div_up w d * div_up h d).
Proof.
  intros D W H. unfold lims. rewrite Z.shiftr_div_pow2 by lia. change (2 ^ 2) with 4.
  pose proof (div_up_bounds w d ltac:(lia)) as A. pose proof (div_up_bounds h d ltac:(lia)) as B.
  set (a := div_up w d) in *. set (b := div_up h d) in *. clearbody a b.
  assert (1 <= a) by nia. assert (1 <= b) by nia.
  assert (2 * a <= w) by (destruct (Z.le_gt_cases (2 * a) w); auto; exfalso; assert (3 * (a - 1) < w) by nia; lia).
  assert (2 * b <= h) by (destruct (Z.le_gt_cases (2 * b) h); auto; exfalso; assert (3 * (b - 1) < h) by nia; lia).
  apply Z.div_le_lower_bound; [lia|]. apply Z.div_le_lower_bound; nia.
Qed.

Lemma init_zero w h n : 0 <= w -> 0 <= h -> 0 < n -> (superpixels w h n NSPX = None <-> w * h < n).
Proof.
  intros W H N. unfold superpixels, diameter. destruct (Z.sqrt (w * h / n) =? 0) eqn:E.
  - apply Z.eqb_eq in E. split; [intros _|reflexivity].
    destruct (Z.lt_ge_cases (w * h) n) as [L|L]; auto. exfalso.
    assert (1 <= w * h / n) by (apply Z.div_le_lower_bound; lia).
    assert (Z.sqrt 1 <= Z.sqrt (w * h / n)) by (apply Z.sqrt_le_mono; auto). change (Z.sqrt 1) with 1 in *. lia.
  - apply Z.eqb_neq in E. split; [discriminate|]. intros L. exfalso. apply E. rewrite Z.div_small by nia. reflexivity.
Qed.

Lemma init_some w h n : 0 < w -> 0 < h -> 0 < n -> n <= w * h -> exists nb, superpixels w h n NSPX = Some nb /\ n <= nb.
Proof.
  intros W H N L. unfold superpixels, diameter.
  assert (A : 1 <= w * h / n) by (apply Z.div_le_lower_bound; lia).
  assert (B : Z.sqrt 1 <= Z.sqrt (w * h / n)) by (apply Z.sqrt_le_mono; auto). change (Z.sqrt 1) with 1 in B.
  set (d := Z.sqrt (w * h / n)) in *.
  assert (C : d * d <= w * h / n) by (apply Z.sqrt_spec; lia).
  assert (D : n * (d * d) <= w * h) by (pose proof (Z.mul_div_le (w * h) n N); nia).
  replace (d =? 0) with false by (symmetry; apply Z.eqb_neq; lia).
  eexists. split; [reflexivity|].
  pose proof (div_up_bounds w d ltac:(lia)) as E. pose proof (div_up_bounds h d ltac:(lia)) as F.
  set (a := div_up w d) in *. set (b := div_up h d) in *. clearbody a b d.
  assert (w * h <= (d * a) * (d * b)) by (apply Z.mul_le_mono_nonneg; lia).
  nia.
Qed.
