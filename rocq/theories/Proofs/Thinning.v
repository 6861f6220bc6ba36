From Coq Require Import ZArith List Bool Lia.
From Verif Require Import Lib.Grid Model.Thinning Spec.Thinning.
Import ListNotations.
Open Scope Z_scope.

Lemma pos_true v : pos v = true <-> v <> 0.
Proof. unfold pos. destruct (Z.eqb_spec v 0); cbn; split; intro; congruence. Qed.
Lemma pos_false v : pos v = false <-> v = 0.
Proof. unfold pos. destruct (Z.eqb_spec v 0); cbn; split; intro; congruence. Qed.
Lemma interior_inner rows cols y x : interior rows cols y x = true <-> inner rows cols y x.
Proof. unfold interior, inner. rewrite !andb_true_iff, !Z.leb_le, !Z.ltb_lt. reflexivity. Qed.

(** ** marks *)
Definition ring (f : img) (y x : Z) : list bool := map (fun k => pos (nb f y x k)) [0; 1; 2; 3; 4; 5; 6; 7].
Definition mark_of (second : bool) (r : list bool) : bool :=
  match r with
  | [no; ne; ea; se; so; sw; we; nw] =>
    let A := b2z (negb no && ne) + b2z (negb ne && ea) + b2z (negb ea && se) + b2z (negb se && so) +
           b2z (negb so && sw) + b2z (negb sw && we) + b2z (negb we && nw) + b2z (negb nw && no) in
    let B := b2z no + b2z ne + b2z ea + b2z se + b2z so + b2z sw + b2z we + b2z nw in
    let m1 := if negb second then b2z no * b2z ea * b2z so else b2z no * b2z ea * b2z we in
    let m2 := if negb second then b2z ea * b2z so * b2z we else b2z no * b2z so * b2z we in
    (A =? 1) && (2 <=? B) && (B <=? 6) && (m1 =? 0) && (m2 =? 0)
  | _ => false
  end.
Lemma mark_ring s f y x : zs_mark s f y x = mark_of s (ring f y x).
Proof.
  unfold zs_mark, ring, mark_of, nb. cbn [map].
  change (dir 0) with (-1, 0); change (dir 1) with (-1, 1); change (dir 2) with (0, 1); change (dir 3) with (1, 1);
  change (dir 4) with (1, 0); change (dir 5) with (1, -1); change (dir 6) with (0, -1); change (dir 7) with (-1, -1).
  cbn [fst snd]. rewrite !Z.add_0_r. change (y + -1) with (y - 1). change (x + -1) with (x - 1). reflexivity.
Qed.
Lemma k8 k : 0 <= k < 8 -> k = 0 \/ k = 1 \/ k = 2 \/ k = 3 \/ k = 4 \/ k = 5 \/ k = 6 \/ k = 7.
Proof. lia. Qed.
Lemma dir_mod k : dir (k mod 8) = dir k.
Proof. unfold dir. now rewrite Z.mod_mod by lia. Qed.
Lemma nb_ring f y x k : nb f y x k <> 0 <-> nth (Z.to_nat (k mod 8)) (ring f y x) false = true.
Proof.
  rewrite <- pos_true. unfold nb. rewrite <- dir_mod. fold (nb f y x (k mod 8)).
  pose proof (Z.mod_pos_bound k 8 eq_refl) as B. destruct (k8 _ B) as [E|[E|[E|[E|[E|[E|[E|E]]]]]]]; rewrite E; reflexivity.
Qed.
(** the specification on a ring of eight booleans *)
Definition at_ (r : list bool) (k : Z) : bool := nth (Z.to_nat (k mod 8)) r false.
Lemma nb_at f y x k : fg (nb f y x k) <-> at_ (ring f y x) k = true.
Proof. apply nb_ring. Qed.
Lemma nb_at' f y x k : ~ fg (nb f y x k) <-> at_ (ring f y x) k = false.
Proof. rewrite nb_at. destruct (at_ _ _); split; intro; congruence. Qed.

Definition rise (r : list bool) (k : Z) : bool := negb (at_ r k) && at_ r (k + 1).
Definition K8 := [0; 1; 2; 3; 4; 5; 6; 7].
Lemma rising_rise f y x k : rising f y x k <-> rise (ring f y x) k = true.
Proof. unfold rising, rise. rewrite nb_at', nb_at, andb_true_iff, negb_true_iff. reflexivity. Qed.
Lemma in_K8 k : In k K8 <-> 0 <= k < 8.
Proof. unfold K8. split; [ cbn; lia |]. intro H. destruct (k8 _ H) as [E|[E|[E|[E|[E|[E|[E|E]]]]]]]; subst; cbn; tauto. Qed.
Lemma nodup_K8 : NoDup K8.
Proof. unfold K8. repeat constructor; cbn; lia. Qed.
Lemma one_rising_filter f y x : one_rising f y x <-> Z.of_nat (length (filter (rise (ring f y x)) K8)) = 1.
Proof.
  assert (M : forall k, In k (filter (rise (ring f y x)) K8) <-> 0 <= k < 8 /\ rising f y x k) by
    (intro k; rewrite filter_In, in_K8, rising_rise; reflexivity).
  assert (ND : NoDup (filter (rise (ring f y x)) K8)) by (apply NoDup_filter, nodup_K8).
  revert M ND. generalize (filter (rise (ring f y x)) K8). intros l M ND. split.
  - intros (k & B & R & U). destruct l as [|a l].
    + exfalso. apply (proj2 (M k)). tauto.
    + destruct l as [|b l]; [ reflexivity |]. exfalso.
      assert (A1 : a = k) by (apply U; apply M; now left).
      assert (A2 : b = k) by (apply U; apply M; right; now left). subst. inversion ND as [|? ? N _]. apply N. now left.
  - intro L. destruct l as [|a [|b l]]; cbn [length] in L; try lia. exists a. destruct (proj1 (M a) (or_introl eq_refl)) as [B R].
    repeat split; try lia; try apply R. intros k' B' R'. destruct (proj2 (M k') (conj B' R')) as [->|[]]. reflexivity.
Qed.
Lemma degree_filter f y x : degree_ok f y x <-> 2 <= Z.of_nat (length (filter (at_ (ring f y x)) K8)) <= 6.
Proof.
  assert (M : forall k, In k (filter (at_ (ring f y x)) K8) <-> 0 <= k < 8 /\ fg (nb f y x k)) by
    (intro k; rewrite filter_In, in_K8, nb_at; reflexivity).
  assert (ND : NoDup (filter (at_ (ring f y x)) K8)) by (apply NoDup_filter, nodup_K8).
  revert M ND. generalize (filter (at_ (ring f y x)) K8). intros l M ND. split.
  - intros (S & (NS & HS) & L). replace (length l) with (length S); [ assumption |].
    apply Nat.le_antisymm; apply NoDup_incl_length; trivial; intros k I.
    + apply M. now apply HS.
    + apply HS. now apply M.
  - intro L. exists l. exact (conj (conj ND M) L).
Qed.
Lemma some_bg_existsb f y x ks : some_bg f y x ks <-> existsb (fun k => negb (at_ (ring f y x) k)) ks = true.
Proof.
  unfold some_bg. rewrite existsb_exists. split; intros (k & I & H); exists k; (split; [ exact I |]).
  - apply nb_at' in H. now rewrite H.
  - apply nb_at'. now apply negb_true_iff.
Qed.
Lemma ring_shape f y x : exists a b c d e g h i, ring f y x = [a; b; c; d; e; g; h; i].
Proof. unfold ring. cbn [map]. repeat eexists. Qed.
Definition spec_of (second : bool) (r : list bool) : bool :=
  (Z.of_nat (length (filter (rise r) K8)) =? 1) && (2 <=? Z.of_nat (length (filter (at_ r) K8))) && (Z.of_nat (length (filter (at_ r) K8)) <=? 6) &&
  (if second then existsb (fun k => negb (at_ r k)) [0; 2; 6] && existsb (fun k => negb (at_ r k)) [0; 4; 6]
   else existsb (fun k => negb (at_ r k)) [0; 2; 4] && existsb (fun k => negb (at_ r k)) [2; 4; 6]).
Lemma removable_spec s f y x : removable s f y x <-> spec_of s (ring f y x) = true.
Proof.
  unfold removable, spec_of. rewrite !andb_true_iff, Z.eqb_eq, !Z.leb_le, <- one_rising_filter.
  rewrite degree_filter. destruct s; rewrite andb_true_iff, <- !some_bg_existsb; tauto.
Qed.
Lemma mark_spec_ring s a b c d e g h i : mark_of s [a; b; c; d; e; g; h; i] = spec_of s [a; b; c; d; e; g; h; i].
Proof. destruct s, a, b, c, d, e, g, h, i; vm_compute; reflexivity. Qed.
Lemma mark_removable s f y x : zs_mark s f y x = true <-> removable s f y x.
Proof.
  rewrite removable_spec, mark_ring. destruct (ring_shape f y x) as (a & b & c & d & e & g & h & i & ->). rewrite mark_spec_ring. reflexivity.
Qed.
(** foreground neighbours of a removable pixel form one arc *)
Definition arc_ok (r : list bool) : bool :=
  existsb (fun i => existsb (fun n => forallb (fun k => Bool.eqb (at_ r (i + k)) (k <? n)) K8) [2; 3; 4; 5; 6]) K8.
Lemma spec_arc s a b c d e g h i : spec_of s [a; b; c; d; e; g; h; i] = true -> arc_ok [a; b; c; d; e; g; h; i] = true.
Proof. destruct s, a, b, c, d, e, g, h, i; vm_compute; intro H; (reflexivity || discriminate H). Qed.
Lemma removable_arc s f y x : removable s f y x ->
  exists i n, 2 <= n <= 6 /\ forall k, 0 <= k < 8 -> (fg (nb f y x (i + k)) <-> k < n).
Proof.
  rewrite removable_spec. intro H.
  assert (A : arc_ok (ring f y x) = true).
  { revert H. destruct (ring_shape f y x) as (a & b & c & d & e & g & h & i & ->). apply spec_arc. }
  unfold arc_ok in A. apply existsb_exists in A. destruct A as (i & _ & A). apply existsb_exists in A. destruct A as (n & In_n & A).
  rewrite forallb_forall in A. exists i, n. split; [ cbn in In_n; lia |].
  intros k Bk. specialize (A k (proj2 (in_K8 k) Bk)). apply eqb_prop in A. rewrite nb_at, A. apply Z.ltb_lt.
Qed.

(** ** passes *)
Lemma pass_cases rows cols s f y x :
  (inner rows cols y x /\ removable s f y x /\ zs_pass rows cols s f y x = 0) \/
  (~ (inner rows cols y x /\ removable s f y x) /\ zs_pass rows cols s f y x = f y x).
Proof.
  unfold zs_pass. destruct (interior rows cols y x) eqn:I; destruct (zs_mark s f y x) eqn:M; cbn [andb].
  - left. apply interior_inner in I. apply mark_removable in M. auto.
  - right. split; auto. intros [_ R]. apply mark_removable in R. congruence.
  - right. split; auto. intros [R _]. apply interior_inner in R. congruence.
  - right. split; auto. intros [R _]. apply interior_inner in R. congruence.
Qed.
Lemma pass_kept_or_zero rows cols s f y x : zs_pass rows cols s f y x = f y x \/ zs_pass rows cols s f y x = 0.
Proof. destruct (pass_cases rows cols s f y x) as [(_ & _ & E)|(_ & E)]; auto. Qed.
Lemma pass_zero rows cols s f y x : zs_pass rows cols s f y x = 0 <-> f y x = 0 \/ (inner rows cols y x /\ removable s f y x).
Proof.
  destruct (pass_cases rows cols s f y x) as [(I & R & E)|(N & E)]; rewrite E; split; try tauto.
Qed.
Lemma pass_outside rows cols s f y x : ~ inner rows cols y x -> zs_pass rows cols s f y x = f y x.
Proof. intro N. destruct (pass_cases rows cols s f y x) as [(I & _ & E)|(_ & E)]; tauto. Qed.

Lemma dir_bound k : -1 <= fst (dir k) <= 1 /\ -1 <= snd (dir k) <= 1.
Proof.
  pose proof (Z.mod_pos_bound k 8 eq_refl) as B. unfold dir.
  destruct (k8 _ B) as [E|[E|[E|[E|[E|[E|[E|E]]]]]]]; rewrite E; cbn; lia.
Qed.
Lemma inner_nb rows cols y x k : inner rows cols y x -> inside rows cols (y + fst (dir k)) (x + snd (dir k)).
Proof. unfold inner, inside. pose proof (dir_bound k). lia. Qed.
Lemma ring_ext f g y x : (forall k, 0 <= k < 8 -> (nb f y x k = 0 <-> nb g y x k = 0)) -> ring f y x = ring g y x.
Proof.
  intro H. unfold ring. apply map_ext_in. intros k I. apply in_K8 in I. specialize (H k I).
  destruct (pos (nb f y x k)) eqn:E1, (pos (nb g y x k)) eqn:E2; auto; rewrite ?pos_true, ?pos_false in *; tauto.
Qed.
Lemma mark_shape rows cols s f g y x : same_shape rows cols f g -> inner rows cols y x -> zs_mark s f y x = zs_mark s g y x.
Proof.
  intros S I. rewrite !mark_ring. f_equal. apply ring_ext. intros k _. apply S, inner_nb, I.
Qed.
Lemma pass_shape rows cols s f g : same_shape rows cols f g -> same_shape rows cols (zs_pass rows cols s f) (zs_pass rows cols s g).
Proof.
  intros S y x I. unfold zs_pass. destruct (interior rows cols y x) eqn:E; cbn [andb]; [| now apply S ].
  apply interior_inner in E. rewrite (mark_shape _ _ s f g y x S E). destruct (zs_mark s g y x); [ tauto | now apply S ].
Qed.
Lemma agree_shape rows cols f g : agree rows cols f g -> same_shape rows cols f g.
Proof. intros A y x I. now rewrite A. Qed.
Lemma pass_agree rows cols s f g : agree rows cols f g -> agree rows cols (zs_pass rows cols s f) (zs_pass rows cols s g).
Proof.
  intros A y x I. unfold zs_pass. destruct (interior rows cols y x) eqn:E; cbn [andb]; [| now apply A ].
  apply interior_inner in E. rewrite (mark_shape _ _ s f g y x (agree_shape _ _ _ _ A) E). destruct (zs_mark s g y x); auto.
Qed.
Lemma same_agree rows cols f g : same rows cols f g = true <-> agree rows cols f g.
Proof.
  unfold same, agree, inside. rewrite forallb_forall. split.
  - intros H y x I. apply Z.eqb_eq. apply (H (y, x)). apply in_grid. cbn [fst snd]. lia.
  - intros H [y x] I. apply in_grid in I. cbn [fst snd] in *. apply Z.eqb_eq. apply H. lia.
Qed.

Notation twice rows cols f := (zs_pass rows cols true (zs_pass rows cols false f)).

Lemma twice_kept_or_zero rows cols f y x : twice rows cols f y x = f y x \/ twice rows cols f y x = 0.
Proof.
  destruct (pass_kept_or_zero rows cols true (zs_pass rows cols false f) y x) as [E|E]; auto.
  rewrite E. apply pass_kept_or_zero.
Qed.
Lemma twice_agree rows cols f g : agree rows cols f g -> agree rows cols (twice rows cols f) (twice rows cols g).
Proof. intro A. now do 2 apply pass_agree. Qed.
Lemma agree_trans rows cols f g h : agree rows cols f g -> agree rows cols g h -> agree rows cols f h.
Proof. intros A B y x I. now rewrite A, B. Qed.
Lemma agree_sym rows cols f g : agree rows cols f g -> agree rows cols g f.
Proof. intros A y x I. now rewrite A. Qed.

(** ** termination *)
Definition weight (rows cols : Z) (f : img) : Z := count (fun p => pos (f (fst p) (snd p))) (grid 0 rows 0 cols).
Lemma count_strict {A} (p q : A -> bool) l a : (forall x, In x l -> p x = true -> q x = true) -> In a l -> q a = true -> p a = false ->
  count p l < count q l.
Proof.
  intros M. induction l as [|b l IH]; intros I Q P; [ destruct I |]. rewrite !count_cons. destruct I as [->|I].
  - rewrite Q, P. pose proof (count_mono p q l (fun x Ix => M x (or_intror Ix))). lia.
  - specialize (IH (fun x Ix => M x (or_intror Ix)) I Q P). destruct (p b) eqn:Pb; [ rewrite (M b (or_introl eq_refl) Pb); lia | destruct (q b); lia ].
Qed.
Lemma same_false rows cols f g : same rows cols f g = false -> exists y x, inside rows cols y x /\ f y x <> g y x.
Proof.
  unfold same, inside. intro H.
  assert (E : exists p, In p (grid 0 rows 0 cols) /\ (f (fst p) (snd p) =? g (fst p) (snd p)) = false).
  { induction (grid 0 rows 0 cols) as [|a l IH]; cbn in H; [ discriminate |].
    apply andb_false_iff in H. destruct H as [H|H]; [ exists a; cbn; auto |]. destruct (IH H) as (p & I & Hp). exists p. cbn. auto. }
  destruct E as ([y x] & I & Hp). apply in_grid in I. cbn [fst snd] in *. apply Z.eqb_neq in Hp. exists y, x. split; [ lia | auto ].
Qed.
Lemma twice_weight rows cols f : same rows cols (twice rows cols f) f = false -> weight rows cols (twice rows cols f) < weight rows cols f.
Proof.
  intro H. apply same_false in H. destruct H as (y & x & I & N).
  assert (Z0 : twice rows cols f y x = 0) by (destruct (twice_kept_or_zero rows cols f y x); congruence).
  unfold weight. apply count_strict with (a := (y, x)).
  - intros [a b] _. cbn [fst snd]. rewrite !pos_true. intros P Q. apply P. destruct (twice_kept_or_zero rows cols f a b); congruence.
  - apply in_grid. cbn [fst snd]. unfold inside in I. lia.
  - cbn [fst snd]. apply pos_true. congruence.
  - cbn [fst snd]. now apply pos_false.
Qed.
Lemma loop_terminates rows cols : forall k f, weight rows cols f < Z.of_nat k -> exists g, zs_loop k rows cols f f = Some g.
Proof.
  induction k as [|k IH]; intros f W; [ unfold weight in W; pose proof (count_nonneg (fun p => pos (f (fst p) (snd p))) (grid 0 rows 0 cols)); lia |].
  cbn [zs_loop]. cbv zeta. destruct (same rows cols (twice rows cols f) f) eqn:E; [ eauto |].
  apply IH. pose proof (twice_weight _ _ _ E). lia.
Qed.
Lemma weight_bound rows cols f : 0 <= rows -> 0 <= cols -> weight rows cols f <= rows * cols.
Proof. intros. unfold weight. rewrite <- (grid_length 0 rows 0 cols) by lia. apply count_le. Qed.
Lemma weight_mono rows cols f : weight rows cols (twice rows cols f) <= weight rows cols f.
Proof.
  apply count_mono. intros [a b] _. cbn [fst snd]. rewrite !pos_true. intros P Q. apply P. destruct (twice_kept_or_zero rows cols f a b); congruence.
Qed.
Lemma thinning_terminates rows cols f fuel : 3 < rows -> 3 < cols -> rows * cols + 1 < Z.of_nat fuel ->
  exists g, thinning_zs fuel rows cols f = Done (Some g).
Proof.
  intros R C F. unfold thinning_zs. rewrite (proj2 (Z.ltb_lt 3 rows) R), (proj2 (Z.ltb_lt 3 cols) C). cbn [andb].
  destruct fuel as [|k]; [ nia |]. cbn [zs_loop]. cbv zeta. destruct (same _ _ _ _); [ eauto |].
  destruct (loop_terminates rows cols k (twice rows cols f)) as (g & ->); eauto.
  pose proof (weight_mono rows cols f). pose proof (weight_bound rows cols f ltac:(lia) ltac:(lia)). lia.
Qed.
Lemma loop_fuel rows cols : forall k k' f p g, (k <= k')%nat -> zs_loop k rows cols f p = Some g -> zs_loop k' rows cols f p = Some g.
Proof.
  induction k as [|k IH]; intros k' f p g L; [ discriminate |]. destruct k' as [|k']; [ lia |]. cbn [zs_loop]. cbv zeta.
  destruct (same _ _ _ _); auto. apply IH. lia.
Qed.
Lemma thinning_inv fuel rows cols f g : thinning_zs fuel rows cols f = Done (Some g) ->
  3 < rows /\ 3 < cols /\ zs_loop fuel rows cols f (fun _ _ => 0) = Some g.
Proof.
  unfold thinning_zs. destruct (Z.ltb_spec 3 rows), (Z.ltb_spec 3 cols); cbn [andb]; try discriminate. intro E.
  assert (zs_loop fuel rows cols f (fun _ _ => 0) = Some g) by congruence. auto.
Qed.
Lemma thinning_fuel k k' rows cols f g : (k <= k')%nat -> thinning_zs k rows cols f = Done (Some g) -> thinning_zs k' rows cols f = Done (Some g).
Proof.
  intros L H. unfold thinning_zs in *. destruct ((3 <? rows) && (3 <? cols)); [| discriminate H ]. f_equal. apply loop_fuel with k; [ exact L | congruence ].
Qed.

(** ** the result *)
Lemma loop_kept rows cols : forall k f p g, zs_loop k rows cols f p = Some g -> forall y x, g y x = f y x \/ g y x = 0.
Proof.
  induction k as [|k IH]; intros f p g; [ discriminate |]. cbn [zs_loop]. cbv zeta. destruct (same _ _ _ _).
  - intros E y x. assert (g = twice rows cols f) by congruence. subst g. apply twice_kept_or_zero.
  - intros E y x. destruct (IH _ _ _ E y x) as [-> | ->]; auto. apply twice_kept_or_zero.
Qed.
Lemma loop_border rows cols : forall k f p g, zs_loop k rows cols f p = Some g -> forall y x, ~ inner rows cols y x -> g y x = f y x.
Proof.
  induction k as [|k IH]; intros f p g; [ discriminate |]. cbn [zs_loop]. cbv zeta. destruct (same _ _ _ _).
  - intros E y x N. assert (g = twice rows cols f) by congruence. subst g. now rewrite !pass_outside.
  - intros E y x N. rewrite (IH _ _ _ E y x N). now rewrite !pass_outside.
Qed.
Lemma twice_zero rows cols f : agree rows cols f (fun _ _ => 0) -> agree rows cols (twice rows cols f) f.
Proof. intros A y x I. destruct (twice_kept_or_zero rows cols f y x) as [E|E]; auto. rewrite E. symmetry. now apply A. Qed.
Lemma loop_stable rows cols : forall k f p g, (agree rows cols p f \/ agree rows cols p (fun _ _ => 0)) ->
  zs_loop k rows cols f p = Some g -> agree rows cols (twice rows cols g) g.
Proof.
  induction k as [|k IH]; intros f p g P; [ discriminate |]. cbn [zs_loop]. cbv zeta. destruct (same rows cols (twice rows cols f) p) eqn:S.
  - intro E. assert (g = twice rows cols f) by congruence. subst g. apply same_agree in S. destruct P as [P|P].
    + apply twice_agree. eapply agree_trans; eassumption.
    + apply twice_zero. eapply agree_trans; eassumption.
  - apply IH. left. intros y x _. reflexivity.
Qed.
Lemma thinning_stable fuel rows cols f g : thinning_zs fuel rows cols f = Done (Some g) -> agree rows cols (twice rows cols g) g.
Proof. intro H. apply thinning_inv in H. destruct H as (_ & _ & H). eapply loop_stable; [| exact H ]. right. intros y x _. reflexivity. Qed.
Lemma thinning_no_removable fuel rows cols f g : thinning_zs fuel rows cols f = Done (Some g) ->
  forall s y x, inner rows cols y x -> g y x <> 0 -> ~ removable s g y x.
Proof.
  intros H s y x I N R. pose proof (thinning_stable _ _ _ _ _ H) as S.
  assert (In_ : inside rows cols y x) by (unfold inner, inside in *; lia).
  assert (P1 : agree rows cols (zs_pass rows cols false g) g).
  { intros a b J. pose proof (S a b J) as E. destruct (pass_kept_or_zero rows cols false g a b) as [E1|E1]; auto.
    rewrite E1. destruct (pass_kept_or_zero rows cols true (zs_pass rows cols false g) a b) as [E2|E2]; congruence. }
  destruct s.
  - pose proof (S y x In_) as E. apply N. rewrite <- E. apply pass_zero. right. split; auto.
    apply mark_removable. apply mark_removable in R.
    rewrite (mark_shape rows cols true (zs_pass rows cols false g) g y x (agree_shape _ _ _ _ P1) I). exact R.
  - apply N. rewrite <- (P1 y x In_). apply pass_zero. auto.
Qed.
Lemma thinning_idempotent fuel rows cols f g : thinning_zs fuel rows cols f = Done (Some g) ->
  exists h, thinning_zs 2 rows cols g = Done (Some h) /\ agree rows cols h g.
Proof.
  intro H. pose proof (thinning_stable _ _ _ _ _ H) as S. apply thinning_inv in H. destruct H as (R & C & _).
  unfold thinning_zs. rewrite (proj2 (Z.ltb_lt 3 rows) R), (proj2 (Z.ltb_lt 3 cols) C). cbn [andb zs_loop]. cbv zeta.
  destruct (same rows cols (twice rows cols g) (fun _ _ => 0)); [ eexists; split; [ reflexivity | exact S ] |].
  pose proof (twice_agree _ _ _ _ S) as S2. rewrite (proj2 (same_agree _ _ _ _) S2).
  eexists; split; [ reflexivity |]. eapply agree_trans; eassumption.
Qed.
(** shape dependence: on 0/1-pattern-equal inputs, the results have the same pattern, whatever the number of rounds *)
Fixpoint rounds (n : nat) (rows cols : Z) (f : img) : img :=
  match n with O => f | S k => rounds k rows cols (twice rows cols f) end.
Lemma rounds_shape rows cols : forall n f f', same_shape rows cols f f' -> same_shape rows cols (rounds n rows cols f) (rounds n rows cols f').
Proof. induction n as [|n IH]; intros f f' S; cbn; auto. apply IH. now do 2 apply pass_shape. Qed.
Lemma rounds_agree rows cols : forall n f f', agree rows cols f f' -> agree rows cols (rounds n rows cols f) (rounds n rows cols f').
Proof. induction n as [|n IH]; intros f f' S; cbn; auto. apply IH. now apply twice_agree. Qed.
Lemma loop_rounds rows cols : forall k f p g, zs_loop k rows cols f p = Some g -> exists n, g = rounds n rows cols f.
Proof.
  induction k as [|k IH]; intros f p g; [ discriminate |]. cbn [zs_loop]. cbv zeta. destruct (same _ _ _ _).
  - intro E. exists 1%nat. cbn. congruence.
  - intro E. destruct (IH _ _ _ E) as (n & ->). now exists (S n).
Qed.
Lemma rounds_app rows cols : forall n m f, rounds (n + m) rows cols f = rounds m rows cols (rounds n rows cols f).
Proof. induction n as [|n IH]; intros m f; cbn; auto. Qed.
Lemma rounds_fix rows cols g : agree rows cols (twice rows cols g) g -> forall n, agree rows cols (rounds n rows cols g) g.
Proof.
  intro S. induction n as [|n IH]; cbn; [ intros y x _; reflexivity |].
  eapply agree_trans; [ apply rounds_agree; exact S | exact IH ].
Qed.
Lemma thinning_shape k k' rows cols f f' g g' : same_shape rows cols f f' ->
  thinning_zs k rows cols f = Done (Some g) -> thinning_zs k' rows cols f' = Done (Some g') -> same_shape rows cols g g'.
Proof.
  intros S H H'. pose proof (thinning_stable _ _ _ _ _ H) as St. pose proof (thinning_stable _ _ _ _ _ H') as St'.
  apply thinning_inv in H. apply thinning_inv in H'. destruct H as (_ & _ & H). destruct H' as (_ & _ & H').
  destruct (loop_rounds _ _ _ _ _ _ H) as (n & E). destruct (loop_rounds _ _ _ _ _ _ H') as (m & E').
  assert (A : agree rows cols (rounds (n + m) rows cols f) g) by (rewrite rounds_app, <- E; now apply rounds_fix).
  assert (A' : agree rows cols (rounds (n + m) rows cols f') g') by (rewrite Nat.add_comm, rounds_app, <- E'; now apply rounds_fix).
  intros y x I. rewrite <- (A y x I), <- (A' y x I). now apply rounds_shape.
Qed.

(** ** Lam-Lee-Suen *)
Lemma counts_none m (a b c d e g h i : Z) : lls_counts m [a; b; c; d; e; g; h; i] = None <-> i = 0.
Proof.
  unfold lls_counts, lls_block, rd, orb_, andb_, negb_, add_, option_map. cbn [nth_error fold_left Nat.mul Nat.add Nat.sub Nat.modulo Nat.divmod snd].
  split.
  - intro H. apply pos_false. destruct (pos i) eqn:E; trivial. exfalso. revert H.
    destruct m, (pos a), (pos b), (pos c), (pos d), (pos e), (pos g), (pos h); cbn; congruence.
  - intros ->. change (pos 0) with false.
    destruct m, (pos a), (pos b), (pos c), (pos d), (pos e), (pos g), (pos h); reflexivity.
Qed.
Lemma lls_fold_none m s l : fold_left (lls_pixel m s) l None = None.
Proof. induction l; cbn; auto. Qed.
Definition bad (f : img) (p : Z * Z) : Prop := f (fst p) (snd p) <> 0 /\ f (fst p + 1) (snd p + 1) = 0.
Lemma lls_pixel_none m s f p : lls_pixel m s (Some f) p = None <-> bad f p.
Proof.
  unfold lls_pixel, bad. destruct (Z.eqb_spec (f (fst p) (snd p)) 0) as [E|E]; [ split; [ discriminate | tauto ] |].
  unfold lut_of. destruct (lls_counts m _) eqn:C.
  - split; [ discriminate |]. intros [_ Z0]. rewrite (proj2 (counts_none m _ _ _ _ _ _ _ _) Z0) in C. discriminate.
  - apply counts_none in C. tauto.
Qed.
Lemma lls_pixel_some m s f p g : lls_pixel m s (Some f) p = Some g ->
  (forall y x, g y x = f y x \/ g y x = 0) /\ (forall y x, (y, x) <> p -> g y x = f y x).
Proof.
  unfold lls_pixel. destruct (_ =? 0).
  - intro E. assert (g = f) by congruence. subst. auto.
  - destruct (lls_counts m _); [| discriminate ]. intro E. destruct (lls_remove _ _ _).
    + assert (g = upd f (fst p) (snd p) 0) by congruence. subst g. unfold upd. split; intros y x.
      * destruct (_ && _); auto.
      * intro N. destruct (Z.eqb_spec y (fst p)), (Z.eqb_spec x (snd p)); cbn [andb]; auto. subst. destruct p. now contradiction N.
    + assert (g = f) by congruence. subst. auto.
Qed.
(** positions whose pixel or lower-right neighbour is not yet visited *)
Definition later (l : list (Z * Z)) : Prop := forall l1 p l2, l = l1 ++ p :: l2 -> forall q, In q l2 -> p <> q /\ p <> (fst q + 1, snd q + 1).
Lemma later_tl a l : later (a :: l) -> later l.
Proof. intros L l1 p l2 E. apply (L (a :: l1)). now rewrite E. Qed.
Lemma lls_fold m s : forall l f, later l ->
  (fold_left (lls_pixel m s) l (Some f) = None <-> exists p, In p l /\ bad f p).
Proof.
  induction l as [|p l IH]; intros f L.
  - cbn. split; [ discriminate | intros (? & [] & _) ].
  - cbn [fold_left]. destruct (lls_pixel m s (Some f) p) as [g|] eqn:E.
    + rewrite (IH g (later_tl _ _ L)). pose proof (lls_pixel_some _ _ _ _ _ E) as [_ K].
      assert (B : forall q, In q l -> (bad f q <-> bad g q)).
      { intros q I. destruct (L [] p l eq_refl q I) as [N1 N2]. unfold bad. rewrite (K (fst q) (snd q)), (K (fst q + 1) (snd q + 1)); [ reflexivity | congruence | destruct q; cbn in *; congruence ]. }
      split; intros (q & I & Bq).
      * exists q. split; [ now right | now apply B ].
      * destruct I as [<-|I]; [ apply (lls_pixel_none m s) in Bq; congruence |]. exists q. split; [ auto | now apply B ].
    + rewrite lls_fold_none. split; auto. intros _. exists p. split; [ now left |]. now apply (lls_pixel_none m s).
Qed.
Lemma later_map_pair (a : Z) : forall l : list Z, (forall l1 b l2, l = l1 ++ b :: l2 -> forall c, In c l2 -> b < c) ->
  forall l1 p l2, map (fun b : Z => (a, b)) l = l1 ++ p :: l2 -> forall q, In q l2 -> fst p = a /\ fst q = a /\ snd p < snd q.
Proof.
  induction l as [|b l IH]; intros S l1 p l2 E q I; [ destruct l1; discriminate |].
  destruct l1 as [|u l1]; cbn [map app] in E.
  - assert (p = (a, b)) by congruence. assert (l2 = map (fun b => (a, b)) l) by congruence. subst. apply in_map_iff in I. destruct I as (c & <- & I).
    cbn. repeat split; auto. apply (S [] b l eq_refl c I).
  - assert (E' : map (fun b => (a, b)) l = l1 ++ p :: l2) by congruence. apply (IH (fun l1 b l2 H => S (_ :: l1) b l2 (f_equal (cons _) H)) l1 p l2 E' q I).
Qed.
Lemma zseq_sorted n : forall a l1 b l2, zseq a n = l1 ++ b :: l2 -> forall c, In c l2 -> b < c.
Proof.
  induction n as [|n IH]; intros a l1 b l2 E c I.
  - destruct l1; discriminate.
  - rewrite zseq_S in E. destruct l1 as [|u l1]; cbn [app] in E.
    + assert (b = a) by congruence. assert (l2 = zseq (a + 1) n) by congruence. subst. apply in_zseq in I. lia.
    + assert (E' : zseq (a + 1) n = l1 ++ b :: l2) by congruence. exact (IH _ _ _ _ E' c I).
Qed.
Lemma app_cut {A} : forall (a b : list A) l1 p l2, a ++ b = l1 ++ p :: l2 ->
  (exists r, a = l1 ++ p :: r /\ l2 = r ++ b) \/ (exists r, l1 = a ++ r /\ b = r ++ p :: l2).
Proof.
  induction a as [|u a IH]; intros b l1 p l2 E; cbn [app] in E.
  - right. exists l1. auto.
  - destruct l1 as [|v l1]; cbn [app] in E.
    + left. exists a. cbn [app]; split; congruence.
    + assert (u = v) by congruence. assert (E' : a ++ b = l1 ++ p :: l2) by congruence. subst v.
      destruct (IH _ _ _ _ E') as [(r & -> & ->)|(r & -> & ->)]; [ left | right ]; exists r; auto.
Qed.
Lemma raster : forall ys : list Z, (forall l1 b l2, ys = l1 ++ b :: l2 -> forall c, In c l2 -> b < c) ->
  forall xs : list Z, (forall l1 b l2, xs = l1 ++ b :: l2 -> forall c, In c l2 -> b < c) ->
  forall l1 p l2, list_prod ys xs = l1 ++ p :: l2 -> forall q, In q l2 -> fst p < fst q \/ (fst p = fst q /\ snd p < snd q).
Proof.
  induction ys as [|y ys IH]; intros Sy xs Sx l1 p l2 E q I; [ destruct l1; discriminate |].
  cbn [list_prod] in E. apply app_cut in E. destruct E as [(r & E & ->)|(r & -> & E)].
  - apply in_app_iff in I. destruct I as [I|I].
    + right. destruct (later_map_pair y xs Sx _ _ _ E q I) as (A & B & C). split; congruence.
    + left. destruct q as [qy qx]. apply in_prod_iff in I. assert (Ip : In p (map (fun b => (y, b)) xs)) by (rewrite E; apply in_elt).
      apply in_map_iff in Ip. destruct Ip as (b & <- & _). cbn. apply (Sy [] y ys eq_refl). tauto.
  - apply (IH (fun l1 b l2 H => Sy (_ :: l1) b l2 (f_equal (cons _) H)) xs Sx _ _ _ E q I).
Qed.
Lemma later_grid y h x w : later (grid y h x w).
Proof.
  intros l1 p l2 E q I. unfold grid, zrange in E.
  pose proof (raster _ (zseq_sorted _ y) _ (zseq_sorted _ x) _ _ _ E q I) as R. split; intro F; subst p; cbn [fst snd] in R; lia.
Qed.
Lemma lls_pass_none m rows cols s f :
  lls_pass m rows cols s f = None <-> exists y x, inner rows cols y x /\ f y x <> 0 /\ f (y + 1) (x + 1) = 0.
Proof.
  unfold lls_pass. rewrite lls_fold by apply later_grid. unfold bad, inner. split.
  - intros ([y x] & I & B). apply in_grid in I. cbn [fst snd] in *. exists y, x. split; [ lia | tauto ].
  - intros (y & x & I & B). exists (y, x). split; [ apply in_grid; cbn [fst snd]; lia | auto ].
Qed.
Lemma lls_black_border m rows cols s f : (forall x, f (rows - 1) x = 0) -> (forall y, f y (cols - 1) = 0) ->
  (lls_pass m rows cols s f = None <-> exists y x, inner rows cols y x /\ f y x <> 0).
Proof.
  intros R C. rewrite lls_pass_none. split.
  - intros (y & x & I & N & _). eauto.
  - intros (y & x & I & N).
    assert (G : forall n y x, rows - y <= Z.of_nat n -> inner rows cols y x -> f y x <> 0 -> exists y x, inner rows cols y x /\ f y x <> 0 /\ f (y + 1) (x + 1) = 0).
    { induction n as [|n IH]; intros a b L J M; [ unfold inner in J; lia |].
      destruct (Z.eq_dec (f (a + 1) (b + 1)) 0) as [E|E]; [ exists a, b; auto |].
      destruct (Z.eq_dec (a + 1) (rows - 1)) as [E1|E1]; [ rewrite E1, R in E; congruence |].
      destruct (Z.eq_dec (b + 1) (cols - 1)) as [E2|E2]; [ rewrite E2, C in E; congruence |].
      apply (IH (a + 1) (b + 1)); [ lia | unfold inner in *; lia | assumption ]. }
    apply (G (Z.to_nat (rows - y)) y x); [ unfold inner in I; lia | assumption | assumption ].
Qed.
Lemma lls_pass_some m rows cols s f g : lls_pass m rows cols s f = Some g ->
  (forall y x, g y x = f y x \/ g y x = 0) /\ (forall y x, ~ inner rows cols y x -> g y x = f y x).
Proof.
  unfold lls_pass. assert (G : forall l f, fold_left (lls_pixel m s) l (Some f) = Some g ->
    (forall y x, g y x = f y x \/ g y x = 0) /\ (forall y x, ~ In (y, x) l -> g y x = f y x)).
  { induction l as [|p l IH]; intros h H.
    - cbn in H. assert (g = h) by congruence. subst. auto.
    - cbn [fold_left] in H. destruct (lls_pixel m s (Some h) p) as [h'|] eqn:E; [| rewrite lls_fold_none in H; discriminate ].
      destruct (IH h' H) as [K1 K2]. destruct (lls_pixel_some _ _ _ _ _ E) as [J1 J2]. split; intros y x.
      + destruct (K1 y x) as [-> | ->]; auto.
      + intro N. rewrite K2, J2; auto; [ intro Q; apply N; left; congruence | intro Q; apply N; right; exact Q ]. }
  intro H. destruct (G _ _ H) as [K1 K2]. split; auto. intros y x N. apply K2. rewrite in_grid. unfold inner in N. cbn [fst snd]. lia.
Qed.
