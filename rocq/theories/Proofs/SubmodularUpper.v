From Coq Require Import ZArith List Bool Lia.
From Verif Require Import Lib.Grid Model.Submodular Spec.Submodular Proofs.Submodular Proofs.SubmodularLinear Proofs.SubmodularNormal Proofs.SubmodularPerm Proofs.SubmodularBound.
Import ListNotations.
Open Scope Z_scope.

Lemma fold_keep {A B} (P : A -> Prop) (f : A -> B -> A) l a : (forall a x, In x l -> P a -> P (f a x)) -> P a -> P (fold_left f l a).
Proof. revert a. induction l as [|x l IH]; intros a H Pa; cbn; [exact Pa|]. apply IH; [intros; apply H; [right|]; assumption|]. apply H; [left; reflexivity|exact Pa]. Qed.
Lemma fold_reach {A B} (P : A -> Prop) (f : A -> B -> A) l a x0 : (forall a x, In x l -> P a -> P (f a x)) -> In x0 l -> (forall a, P (f a x0)) -> P (fold_left f l a).
Proof.
  revert a. induction l as [|x l IH]; intros a H I R; cbn; [destruct I|]. destruct I as [->|I].
  - apply fold_keep; [intros; apply H; [right|]; assumption|apply R].
  - apply IH; [intros; apply H; [right|]; assumption|exact I|exact R].
Qed.
Lemma upd_le psi s v S w : w <= psi S -> w <= upd psi s (Z.max (psi s) v) S.
Proof. intros H. unfold upd. destruct (Z.eqb_spec S s) as [->|]; lia. Qed.
Lemma upd_at psi s v : upd psi s v s = v.
Proof. unfold upd. rewrite Z.eqb_refl. reflexivity. Qed.

Definition raise_pair (f : table) (s si sj : Z) (psi : table) : table :=
  if 0 <? excess f s si sj (Z.lor si sj) then
    let shift := Z.quot (excess f s si sj (Z.lor si sj) + 1) 2 in
    let psi := upd psi si (Z.max (psi si) shift) in upd psi sj (Z.max (psi sj) shift) else psi.
Lemma raise_pair_mono f s si sj psi S w : w <= psi S -> w <= raise_pair f s si sj psi S.
Proof. intros H. unfold raise_pair. destruct (0 <? _); [|exact H]. cbv zeta. apply upd_le, upd_le, H. Qed.
Lemma raise_pair_reach f s si sj psi S : 0 < excess f s si sj (Z.lor si sj) -> S = si \/ S = sj -> Z.quot (excess f s si sj (Z.lor si sj) + 1) 2 <= raise_pair f s si sj psi S.
Proof.
  intros H E. unfold raise_pair. destruct (Z.ltb_spec 0 (excess f s si sj (Z.lor si sj))); [|lia]. cbv zeta. destruct E as [->| ->].
  - apply upd_le. rewrite upd_at. lia.
  - rewrite upd_at. lia.
Qed.
Lemma raise_step_mono n f s psi S w : w <= psi S -> w <= raise_step n f s psi S.
Proof.
  intros H. unfold raise_step. apply (fold_keep (fun p => w <= p S)); [|exact H]. intros p i _ Hp. destruct (_ =? s); [exact Hp|].
  apply (fold_keep (fun p => w <= p S)); [|exact Hp]. intros p' j _ Hp'. destruct (_ =? s); [exact Hp'|]. exact (raise_pair_mono f s (Z.lor s (2 ^ i)) (Z.lor s (2 ^ j)) p' S w Hp').
Qed.
Lemma raise_step_reach n f s psi i j S : 0 <= i < n -> 0 <= j < n -> i < j -> Z.testbit s i = false -> Z.testbit s j = false ->
  let d := excess f s (Z.lor s (2 ^ i)) (Z.lor s (2 ^ j)) (Z.lor (Z.lor s (2 ^ i)) (Z.lor s (2 ^ j))) in
  0 < d -> S = Z.lor s (2 ^ i) \/ S = Z.lor s (2 ^ j) -> Z.quot (d + 1) 2 <= raise_step n f s psi S.
Proof.
  intros Hi Hj Hij Ei Ej d Hd HS. unfold raise_step. apply (fold_reach (fun p => Z.quot (d + 1) 2 <= p S) _ _ _ i).
  - intros p i' _ Hp. destruct (_ =? s); [exact Hp|]. apply (fold_keep (fun p => Z.quot (d + 1) 2 <= p S)); [|exact Hp]. intros p' j' _ Hp'. destruct (_ =? s); [exact Hp'|].
    exact (raise_pair_mono f s (Z.lor s (2 ^ i')) (Z.lor s (2 ^ j')) p' S _ Hp').
  - apply in_zrange. lia.
  - intros p. cbv zeta. rewrite lor_pow_same, Ei by lia. apply (fold_reach (fun p => Z.quot (d + 1) 2 <= p S) _ _ _ j).
    + intros p' j' _ Hp'. destruct (_ =? s); [exact Hp'|]. exact (raise_pair_mono f s (Z.lor s (2 ^ i)) (Z.lor s (2 ^ j')) p' S _ Hp').
    + apply in_zrange. lia.
    + intros p'. cbv zeta. rewrite lor_pow_same, Ej by lia. exact (raise_pair_reach f s (Z.lor s (2 ^ i)) (Z.lor s (2 ^ j)) p' S Hd HS).
Qed.

(* one size *)
Definition raised (n k : Z) (f psi psi' : table) : Prop :=
  (forall S w, w <= psi S -> w <= psi' S) /\
  (forall s i j S, within n s -> pc s = k -> 0 <= i < n -> 0 <= j < n -> i < j -> Z.testbit s i = false -> Z.testbit s j = false ->
    let d := excess f s (Z.lor s (2 ^ i)) (Z.lor s (2 ^ j)) (Z.lor (Z.lor s (2 ^ i)) (Z.lor s (2 ^ j))) in
    0 < d -> S = Z.lor s (2 ^ i) \/ S = Z.lor s (2 ^ j) -> Z.quot (d + 1) 2 <= psi' S).
Lemma raise_walk z n k f psi : 0 <= n < 32 -> 1 <= k <= n -> exists psi', walk z (turns n) (2 ^ n - 1) (2 ^ k - 1) (raise_step n f) psi = Done psi' /\ raised n k f psi psi'.
Proof.
  intros Hn Hk. destruct (walk_level z n k Hn Hk) as (l & A & _ & B). eexists. split; [apply A|]. split.
  - intros S w H. apply (fold_keep (fun p => w <= p S)); [|exact H]. intros p s _. apply raise_step_mono.
  - intros s i j S W P Hi Hj Hij Ei Ej d Hd HS. apply (fold_reach (fun p => Z.quot (d + 1) 2 <= p S) _ _ _ s).
    + intros p s' _. apply raise_step_mono.
    + apply B. auto.
    + intros p. apply raise_step_reach; assumption.
Qed.
Lemma turns_S n : 0 <= n -> exists m, turns n = S m.
Proof. intros Hn. unfold turns. assert (P := pow_pos n Hn). destruct (Z.to_nat (2 ^ n)) as [|m] eqn:E; [lia|]. exists m. reflexivity. Qed.
Lemma walk_empty z n (T : Type) step (st : T) : 0 <= n -> walk (Some z) (turns n) 0 0 step st = Done (step 0 st).
Proof.
  intros Hn. destruct (turns_S n Hn) as [m ->]. cbn [walk]. unfold next_perm. cbn [ctz bind].
  match goal with |- context [?x <? 0] => destruct (Z.ltb_spec x 0) as [L|_]; [exfalso|reflexivity] end.
  revert L. apply Z.le_ngt. apply Z.lor_nonneg. split; [apply Z.mod_pos_bound; lia|]. apply Z.shiftr_nonneg. apply Z.mod_pos_bound. lia.
Qed.
Lemma walk_undefined n (T : Type) step (st : T) : 0 <= n -> walk None (turns n) 0 0 step st = Undefined.
Proof. intros Hn. destruct (turns_S n Hn) as [m ->]. reflexivity. Qed.
Lemma add_list (psi : table) l : NoDup l -> forall f,
  (forall S, In S l -> fold_left (fun (f : table) s => upd f s (f s + psi s)) l f S = f S + psi S) /\ (forall S, ~ In S l -> fold_left (fun (f : table) s => upd f s (f s + psi s)) l f S = f S).
Proof.
  induction l as [|s l IH]; intros ND f; [split; [intros S []|reflexivity]|]. inversion ND as [|? ? N1 N2]; subst. cbn [fold_left]. destruct (IH N2 (upd f s (f s + psi s))) as [A B]. split.
  - intros S [<-|I].
    + rewrite B by exact N1. apply upd_at.
    + rewrite A by exact I. unfold upd. destruct (Z.eqb_spec S s) as [->|]; [contradiction|reflexivity].
  - intros S H. rewrite B by (intros I; apply H; right; exact I). unfold upd. destruct (Z.eqb_spec S s) as [->|]; [exfalso; apply H; left; reflexivity|reflexivity].
Qed.
Lemma add_walk z n k (psi f : table) : 0 <= n < 32 -> 1 <= k <= n -> exists f', walk z (turns n) (2 ^ n - 1) (2 ^ k - 1) (fun s f => upd f s (f s + psi s)) f = Done f' /\
  (forall S, within n S -> pc S = k -> f' S = f S + psi S) /\ (forall S, ~ (within n S /\ pc S = k) -> f' S = f S).
Proof.
  intros Hn Hk. destruct (walk_level z n k Hn Hk) as (l & A & ND & B). eexists. split; [apply A|]. destruct (add_list psi l ND f) as [C D]. split.
  - intros S W P. apply C, B. auto.
  - intros S H. apply D. intros I. apply H, B, I.
Qed.
(* what raising the sets of size k + 1 does *)
Definition level_done (n k : Z) (f psi f' psi' : table) : Prop :=
  raised n k f psi psi' /\ (forall S, within n S -> pc S = k + 1 -> f' S = f S + psi' S) /\ (forall S, ~ (within n S /\ pc S = k + 1) -> f' S = f S).
Lemma raise_level_ok z n k f psi : 0 <= n < 32 -> 1 <= k -> k + 1 <= n -> exists f' psi', raise_level z n k (f, psi) = Done (f', psi') /\ level_done n k f psi f' psi'.
Proof.
  intros Hn Hk Hk'. unfold raise_level. destruct (Z.eqb_spec k 0); [lia|]. destruct (raise_walk z n k f psi Hn ltac:(lia)) as (psi' & E & R). rewrite E. cbn [bind].
  destruct (add_walk z n (k + 1) psi' f Hn ltac:(lia)) as (f' & E' & A & B). rewrite E'. cbn [bind]. exists f', psi'. split; [reflexivity|]. split; [exact R|]. split; assumption.
Qed.
Lemma pc_empty n s : within n s -> pc s = 0 -> s = 0.
Proof. intros W. apply pc_zero. apply W. Qed.
Lemma raise_empty_ok z n f psi : 1 <= n < 32 -> exists f' psi', raise_level (Some z) n 0 (f, psi) = Done (f', psi') /\ level_done n 0 f psi f' psi'.
Proof.
  intros Hn. unfold raise_level. cbn [Z.eqb]. change (2 ^ 0 - 1) with 0. rewrite walk_empty by lia. cbn [bind]. change (0 + 1) with 1.
  destruct (add_walk (Some z) n 1 (raise_step n f 0 psi) f ltac:(lia) ltac:(lia)) as (f' & E' & A & B). rewrite E'. cbn [bind]. exists f', (raise_step n f 0 psi). split; [reflexivity|]. split; [|split; assumption].
  split; [intros S w; apply raise_step_mono|]. intros s i j S W P Hi Hj Hij Ei Ej d Hd HS. assert (s = 0) by (apply (pc_empty n); assumption). subst s. apply raise_step_reach; assumption.
Qed.
Lemma raise_empty_undefined n f psi : 1 <= n < 32 -> raise_level None n 0 (f, psi) = Undefined.
Proof. intros Hn. unfold raise_level. cbn [Z.eqb]. change (2 ^ 0 - 1) with 0. rewrite walk_undefined by lia. reflexivity. Qed.

Definition violated (n : Z) (f : table) (s i j : Z) : Prop :=
  within n s /\ 0 <= i < n /\ 0 <= j < n /\ i < j /\ Z.testbit s i = false /\ Z.testbit s j = false /\ f (Z.lor s (2 ^ i)) + f (Z.lor s (2 ^ j)) < f s + f (Z.lor (Z.lor s (2 ^ i)) (Z.lor s (2 ^ j))).
Lemma raise_levels_ok z n m f psi : 1 <= n < 32 -> Z.of_nat m <= n - 1 -> (forall S, 0 <= psi S) ->
  exists f' psi', raise_levels (Some z) n (rev (zseq 0 m)) (f, psi) = Done (f', psi') /\ (forall S, f S <= f' S) /\ (forall S, ~ (within n S /\ 1 <= pc S <= Z.of_nat m) -> f' S = f S) /\
    (forall s i j, violated n f s i j -> pc s < Z.of_nat m -> f (Z.lor s (2 ^ i)) < f' (Z.lor s (2 ^ i)) /\ f (Z.lor s (2 ^ j)) < f' (Z.lor s (2 ^ j))).
Proof.
  intros Hn. revert f psi. induction m as [|m IH]; intros f psi Hm Hpsi.
  - exists f, psi. split; [reflexivity|]. split; [intros; lia|]. split; [reflexivity|]. intros s i j _ P. assert (X := pc_nonneg s). lia.
  - rewrite zseq_last, rev_app_distr. cbn [rev app raise_levels]. rewrite Z.add_0_l.
    assert (L : exists f1 psi1, raise_level (Some z) n (Z.of_nat m) (f, psi) = Done (f1, psi1) /\ level_done n (Z.of_nat m) f psi f1 psi1).
    { destruct m as [|m]; [apply raise_empty_ok; lia|apply raise_level_ok; lia]. }
    destruct L as (f1 & psi1 & E & (R1 & R2) & A & B). rewrite E. cbn [bind].
    assert (Hpsi1 : forall S, 0 <= psi1 S) by (intros S; apply R1, Hpsi).
    destruct (IH f1 psi1 ltac:(lia) Hpsi1) as (f' & psi' & E' & M & U & G). exists f', psi'.
    assert (M1 : forall S, f S <= f1 S).
    { intros S. destruct (Z.eq_dec (pc S) (Z.of_nat m + 1)) as [P|P]; [|rewrite B by tauto; lia].
      destruct (Z_lt_le_dec S 0) as [X|X]; [rewrite B by (unfold within; lia); lia|]. destruct (Z_lt_le_dec S (2 ^ n)) as [Y|Y]; [|rewrite B by (unfold within; lia); lia].
      rewrite A by (unfold within; lia). specialize (Hpsi1 S). lia. }
    split; [exact E'|]. split; [intros S; specialize (M S); specialize (M1 S); lia|]. split.
    + intros S H. rewrite U by (intros [W P]; apply H; split; [exact W|lia]). apply B. intros [W P]. apply H. split; [exact W|lia].
    + intros s i j (W & Hi & Hj & Hij & Ei & Ej & V) P. destruct (pc_plus n s i Hi W Ei) as [Wi Pi], (pc_plus n s j Hj W Ej) as [Wj Pj].
      destruct (Z.eq_dec (pc s) (Z.of_nat m)) as [Q|Q].
      * assert (D : 0 < excess f s (Z.lor s (2 ^ i)) (Z.lor s (2 ^ j)) (Z.lor (Z.lor s (2 ^ i)) (Z.lor s (2 ^ j)))) by (unfold excess; lia).
        assert (Ri := R2 s i j (Z.lor s (2 ^ i)) W Q Hi Hj Hij Ei Ej D ltac:(left; reflexivity)). assert (Rj := R2 s i j (Z.lor s (2 ^ j)) W Q Hi Hj Hij Ei Ej D ltac:(right; reflexivity)).
        rewrite Z.quot_div_nonneg in Ri, Rj by lia. set (d := excess _ _ _ _ _) in *. assert (1 <= (d + 1) / 2) by (apply Z.div_le_lower_bound; lia).
        assert (Xi := M (Z.lor s (2 ^ i))). assert (Xj := M (Z.lor s (2 ^ j))). rewrite (A (Z.lor s (2 ^ i))) in Xi by (assumption || lia). rewrite (A (Z.lor s (2 ^ j))) in Xj by (assumption || lia). lia.
      * assert (Es : f1 s = f s) by (apply B; lia). assert (Ei1 : f1 (Z.lor s (2 ^ i)) = f (Z.lor s (2 ^ i))) by (apply B; lia). assert (Ej1 : f1 (Z.lor s (2 ^ j)) = f (Z.lor s (2 ^ j))) by (apply B; lia).
        assert (X := M1 (Z.lor (Z.lor s (2 ^ i)) (Z.lor s (2 ^ j)))). rewrite <- Ei1, <- Ej1. apply G; [|lia]. repeat (split; [lia || assumption|]). lia.
Qed.
Lemma raise_levels_undefined n m f psi : 1 <= n < 32 -> Z.of_nat m + 1 <= n - 1 -> raise_levels None n (rev (zseq 0 (S m))) (f, psi) = Undefined.
Proof.
  intros Hn. revert f psi. induction m as [|m IH]; intros f psi Hm; rewrite zseq_last, rev_app_distr; cbn [rev app raise_levels]; rewrite Z.add_0_l.
  - cbn [Z.of_nat]. rewrite raise_empty_undefined by lia. reflexivity.
  - destruct (raise_level_ok None n (Z.of_nat (S m)) f psi ltac:(lia) ltac:(lia) ltac:(lia)) as (f1 & psi1 & E & _). rewrite E. cbn [bind]. apply IH. lia.
Qed.
Lemma not_local n f : check_submodular n f = false -> exists s i j, violated n f s i j.
Proof.
  intros H. unfold check_submodular in H.
  assert (X : forall {A} (p : A -> bool) l, forallb p l = false -> exists x, In x l /\ p x = false).
  { clear. intros A p l. induction l as [|x l IH]; cbn; [discriminate|]. destruct (p x) eqn:E; [|intros _; exists x; auto]. intros H. destruct (IH H) as (y & I & Y). exists y. auto. }
  destruct (X _ _ _ H) as (s & Is & H1). destruct (X _ _ _ H1) as (i & Ii & H2). cbv zeta in H2. apply in_zrange in Is, Ii. rewrite lor_pow_same in H2 by lia.
  destruct (Z.testbit s i) eqn:Ei; [discriminate|]. destruct (X _ _ _ H2) as (j & Ij & H3). apply in_zrange in Ij. rewrite lor_pow_same in H3 by lia. destruct (Z.testbit s j) eqn:Ej; [discriminate|].
  apply negb_false_iff, Z.ltb_lt in H3. unfold excess in H3. exists s, i, j. unfold violated, within. repeat (split; [lia || assumption|]). lia.
Qed.
Lemma violated_size n f s i j : violated n f s i j -> pc s < n - 1.
Proof.
  intros (W & Hi & Hj & Hij & Ei & Ej & _). destruct (pc_plus n s i Hi W Ei) as [Wi Pi].
  assert (E : Z.testbit (Z.lor s (2 ^ i)) j = false) by (rewrite Z.lor_spec, Ej, pow_spec by lia; destruct (Z.eqb_spec i j); [lia|reflexivity]).
  destruct (pc_plus n (Z.lor s (2 ^ i)) j Hj Wi E) as [Wij Pij]. assert (X := pc_bound n _ ltac:(lia) Wij). lia.
Qed.
Definition above (n : Z) (f g : table) : Prop := (forall S, f S <= g S) /\ (forall S, ~ within n S -> g S = f S) /\ g 0 = f 0 /\ g (whole n) = f (whole n).
Lemma above_refl n f : above n f f.
Proof. split; [intros; lia|]. auto. Qed.
Lemma above_trans n f g h : above n f g -> above n g h -> above n f h.
Proof.
  intros (A & B & C & D) (A' & B' & C' & D'). split; [intros S; specialize (A S); specialize (A' S); lia|]. split; [intros S H; rewrite B', B by assumption; reflexivity|]. split; congruence.
Qed.
Lemma cvpr14_round z n m f : 0 <= n < 32 -> ~ submodular n f -> exists f', upper_cvpr14 (Some z) (S m) n f = upper_cvpr14 (Some z) m n f' /\ above n f f' /\ exists S, within n S /\ f S < f' S.
Proof.
  intros Hn NS. destruct (check_submodular n f) eqn:E; [apply check_iff in E; [contradiction|lia]|]. destruct (not_local n f E) as (s & i & j & V). assert (P := violated_size n f s i j V).
  assert (V' := V). destruct V' as (W & Hi & Hj & Hij & _). assert (X := pc_nonneg s).
  destruct (raise_levels_ok z n (Z.to_nat (n - 1)) f (fun _ => 0) ltac:(lia) ltac:(lia) ltac:(intros; lia)) as (f' & psi' & E' & M & U & G). exists f'. split; [|split].
  - cbn [upper_cvpr14]. rewrite E. unfold zrange. rewrite E'. reflexivity.
  - split; [exact M|]. split; [intros S H; apply U; tauto|]. split; apply U; intros [_ Q].
    + cbn in Q. lia.
    + unfold whole in Q. rewrite pc_ones in Q by lia. lia.
  - exists (Z.lor s (2 ^ i)). split; [apply within_lor; [lia|assumption|apply within_pow; lia]|]. apply (G s i j V). lia.
Qed.
Lemma cvpr14_ok z m n f : 0 <= n < 32 -> match upper_cvpr14 (Some z) m n f with Done g => submodular n g /\ above n f g | Running => True | _ => False end.
Proof.
  intros Hn. revert f. induction m as [|m IH]; intros f.
  - cbn [upper_cvpr14]. destruct (check_submodular n f) eqn:E; [|exact I]. apply check_iff in E; [|lia]. split; [exact E|apply above_refl].
  - destruct (check_submodular n f) eqn:E.
    + cbn [upper_cvpr14]. rewrite E. apply check_iff in E; [|lia]. split; [exact E|apply above_refl].
    + destruct (cvpr14_round z n m f Hn) as (f' & Eq & A & _); [intros X; apply check_iff in X; [congruence|lia]|]. rewrite Eq. specialize (IH f').
      destruct (upper_cvpr14 (Some z) m n f') as [g| | |]; try exact IH. destruct IH as [X Y]. split; [exact X|]. exact (above_trans n f f' g A Y).
Qed.
Lemma cvpr14_undefined m n f : 0 <= n < 32 -> ~ submodular n f -> upper_cvpr14 None (S m) n f = Undefined.
Proof.
  intros Hn NS. destruct (check_submodular n f) eqn:E; [apply check_iff in E; [contradiction|lia]|]. destruct (not_local n f E) as (s & i & j & V). assert (P := violated_size n f s i j V).
  assert (X := pc_nonneg s). cbn [upper_cvpr14]. rewrite E. unfold zrange. destruct (Z.to_nat (n - 1)) as [|k] eqn:Ek; [lia|]. rewrite raise_levels_undefined by lia. reflexivity.
Qed.

(* two elements *)
Lemma local_2 f : local 2 f <-> f 0 + f 3 <= f 1 + f 2.
Proof.
  split.
  - intros L. exact (L 0 0 1 ltac:(unfold within; cbn; lia) ltac:(lia) ltac:(lia) ltac:(lia) eq_refl eq_refl).
  - intros H s i j W Hi Hj Hij Ei Ej. assert (i = 0) by lia. assert (j = 1) by lia. subst. unfold within in W. change (2 ^ 2) with 4 in W.
    assert (C : s = 0 \/ s = 1 \/ s = 2 \/ s = 3) by lia. destruct C as [->|[->|[->| ->]]]; try discriminate. exact H.
Qed.
Lemma cvpr14_two z f : exists g, upper_cvpr14 (Some z) 1 2 f = Done g /\ (submodular 2 f -> same 2 g f) /\ (~ submodular 2 f -> 0 <= g 1 + g 2 - (f 0 + f 3) <= 1).
Proof.
  destruct (check_submodular 2 f) eqn:E.
  - exists f. cbn [upper_cvpr14]. rewrite E. split; [reflexivity|]. apply check_iff in E; [|lia]. split; [intros _ S _; reflexivity|tauto].
  - assert (V : f 1 + f 2 < f 0 + f 3). { apply Z.nle_gt. intros X. apply local_2 in X. apply check_local in X. congruence. }
    set (d := f 0 + f 3 - f 1 - f 2). set (h := Z.quot (d + 1) 2).
    assert (R : exists g psi, raise_levels (Some z) 2 (rev (zrange 0 (2 - 1))) (f, fun _ => 0) = Done (g, psi) /\ g 0 = f 0 /\ g 3 = f 3 /\ g 1 = f 1 + Z.max 0 h /\ g 2 = f 2 + Z.max 0 h).
    { change (rev (zrange 0 (2 - 1))) with [0]. cbn [raise_levels]. unfold raise_level. change (0 =? 0) with true. change (2 ^ 0 - 1) with 0. rewrite walk_empty by lia. cbn [bind].
      assert (Q : raise_step 2 f 0 (fun _ => 0) = raise_pair f 0 1 2 (fun _ => 0)) by reflexivity. rewrite Q. unfold raise_pair.
      change (excess f 0 1 2 (Z.lor 1 2)) with (f 0 + f 3 - f 1 - f 2). fold d. destruct (Z.ltb_spec 0 d) as [_|L]; [|unfold d in L; lia]. fold h.
      eexists _, _. split; [reflexivity|]. unfold upd. cbn. repeat split. }
    destruct R as (g & psi & R & G0 & G3 & G1 & G2). exists g. cbn [upper_cvpr14]. rewrite E, R. cbn [bind fst].
    assert (H : 0 < d) by (unfold d; lia). assert (Hh : h = (d + 1) / 2) by (unfold h; apply Z.quot_div_nonneg; lia).
    assert (Hd := Z.div_mod (d + 1) 2 ltac:(lia)). assert (Hm := Z.mod_pos_bound (d + 1) 2 ltac:(lia)).
    assert (C : check_submodular 2 g = true) by (apply check_local, local_2; unfold d in *; lia). rewrite C. split; [reflexivity|]. split.
    + intros X. apply check_iff in X; [congruence|lia].
    + intros _. unfold d in *. lia.
Qed.

(* Chen *)
Lemma chen_inner_ok i ik js d : (forall S w, w <= d S -> w <= fst (chen_inner i ik js d) S) /\ (forall S, S <> i -> fst (chen_inner i ik js d) S = d S).
Proof.
  revert d. induction js as [|j js IH]; intros d; cbn [chen_inner]; [split; [intros S w H; exact H|reflexivity]|].
  destruct (Z.land i (2 ^ j) =? 0); [apply IH|]. cbv zeta. destruct (d (Z.lxor ik (2 ^ j)) <? Z.quot (d ik) 2); [split; [intros S w H; exact H|reflexivity]|].
  set (d' := if d i <? d ik - d (Z.lxor ik (2 ^ j)) then upd d i (d ik - d (Z.lxor ik (2 ^ j))) else d). assert (D : (forall S w, w <= d S -> w <= d' S) /\ (forall S, S <> i -> d' S = d S)).
  { unfold d'. destruct (Z.ltb_spec (d i) (d ik - d (Z.lxor ik (2 ^ j)))); [|split; [intros S w H'; exact H'|reflexivity]].
    unfold upd. split; intros S; [intros w|]; intros X; destruct (Z.eqb_spec S i) as [->|]; try lia; reflexivity. }
  destruct (IH d') as [A B], D as [A' B']. split; [intros S w H; apply A, A', H|intros S H; rewrite B, B' by assumption; reflexivity].
Qed.
Lemma chen_element_ok n i d k : (forall S w, w <= d S -> w <= chen_element n i d k S) /\ (forall S, S <> i -> chen_element n i d k S = d S).
Proof.
  unfold chen_element. destruct (negb _); [split; [intros S w H; exact H|reflexivity]|]. cbv zeta.
  destruct (chen_inner_ok i (Z.lor i (2 ^ k)) (zrange 0 n) d) as [A B]. destruct (chen_inner i (Z.lor i (2 ^ k)) (zrange 0 n) d) as [d' t]. cbn [fst] in *. destruct t; [|split; assumption].
  destruct (Z.ltb_spec (d' i) (Z.quot (d' (Z.lor i (2 ^ k)) + 1) 2)); [|split; assumption].
  unfold upd. split; intros S; [intros w|]; intros X; destruct (Z.eqb_spec S i) as [->|]; try (apply A, X); try (apply B, X); try lia. specialize (A i w X). lia.
Qed.
Lemma chen_diff_ok n d : (forall S w, w <= d S -> w <= chen_diff n d S) /\ (forall S, ~ 1 <= S < 2 ^ n - 1 -> chen_diff n d S = d S).
Proof.
  unfold chen_diff. split.
  - intros S w H. apply (fold_keep (fun d => w <= d S)); [|exact H]. intros d1 i _ H1. apply (fold_keep (fun d => w <= d S)); [|exact H1]. intros d2 k _. apply chen_element_ok.
  - intros S H. apply (fold_keep (fun d' : table => d' S = d S)); [|reflexivity]. intros d1 i I H1. apply in_rev in I. apply in_zrange in I.
    apply (fold_keep (fun d' : table => d' S = d S)); [|exact H1]. intros d2 k _ H2. rewrite (proj2 (chen_element_ok n i d2 k)) by lia. exact H2.
Qed.
Lemma chen_ok z m n f : 0 <= n < 32 -> match chen_loop z m n f with Done g => submodular n g /\ above n f g | Exit => True | _ => False end.
Proof.
  intros Hn. revert f. induction m as [|m IH]; intros f; cbn [chen_loop]; (destruct (check_submodular n f) eqn:E; [apply check_iff in E; [|lia]; split; [exact E|apply above_refl]|]); [exact I|].
  destruct (lower_bound_ok z n f Hn) as (g & d & Eg & _). rewrite Eg. cbn [bind fst]. destruct (chen_diff_ok n (fun s => f s - g s)) as [A B]. set (dd := chen_diff n _) in *.
  assert (P := pow_pos n ltac:(lia)). specialize (IH (fun s => g s + dd s)).
  assert (Ab : above n f (fun s => g s + dd s)).
  { split; [intros S; specialize (A S (f S - g S) ltac:(lia)); lia|]. split; [intros S H; rewrite B by (unfold within in H; lia); lia|]. split; rewrite B by (unfold whole; lia); lia. }
  destruct (chen_loop z m n _) as [h| | |]; try exact IH. destruct IH as [X Y]. split; [exact X|]. exact (above_trans n _ _ _ Ab Y).
Qed.
Lemma chen_two_values (d : table) : d 1 = 0 -> d 2 = 0 -> 0 < d 3 -> chen_diff 2 d 1 + chen_diff 2 d 2 = d 3.
Proof.
  intros D1 D2 D3. assert (X : chen_diff 2 d = chen_element 2 1 (chen_element 2 2 d 0) 1) by reflexivity. rewrite X. clear X.
  assert (Q := Z.quot_div_nonneg (d 3) 2 ltac:(lia) ltac:(lia)). assert (Q' := Z.quot_div_nonneg (d 3 + 1) 2 ltac:(lia) ltac:(lia)).
  assert (M := Z.div_mod (d 3) 2 ltac:(lia)). assert (B := Z.mod_pos_bound (d 3) 2 ltac:(lia)). assert (M' := Z.div_mod (d 3 + 1) 2 ltac:(lia)). assert (B' := Z.mod_pos_bound (d 3 + 1) 2 ltac:(lia)).
  set (q := d 3 / 2) in *. set (q' := (d 3 + 1) / 2) in *.
  assert (E : exists d' : table, chen_element 2 2 d 0 = d' /\ d' 1 = 0 /\ d' 3 = d 3 /\ d' 2 = if 0 <? q then q' else d 3).
  { eexists. split; [reflexivity|]. unfold chen_element. change (negb (Z.land 2 (2 ^ 0) =? 0)) with false. cbv iota zeta. change (Z.lor 2 (2 ^ 0)) with 3. change (zrange 0 2) with [0; 1]. cbn [chen_inner].
    change (Z.land 2 (2 ^ 0) =? 0) with true. change (Z.land 2 (2 ^ 1) =? 0) with false. change (Z.lxor 3 (2 ^ 1)) with 1. cbv iota zeta. rewrite D1, D2, Q.
    destruct (Z.ltb_spec 0 q).
    - rewrite D2, Q'. destruct (Z.ltb_spec 0 q'); [|lia]. unfold upd. cbn. repeat split; assumption.
    - destruct (Z.ltb_spec 0 (d 3 - 0)); [|lia]. unfold upd. cbn. repeat split; (assumption || lia). }
  destruct E as (d' & -> & E1 & E3 & E2). unfold chen_element. change (negb (Z.land 1 (2 ^ 1) =? 0)) with false. cbv iota zeta. change (Z.lor 1 (2 ^ 1)) with 3. change (zrange 0 2) with [0; 1]. cbn [chen_inner].
  change (Z.land 1 (2 ^ 0) =? 0) with false. change (Z.land 1 (2 ^ 1) =? 0) with true. change (Z.lxor 3 (2 ^ 0)) with 2. cbv iota zeta. rewrite E1, E2, E3, Q.
  destruct (Z.ltb_spec 0 q) as [Hq|Hq].
  - destruct (Z.ltb_spec q' q); [lia|]. destruct (Z.ltb_spec 0 (d 3 - q')) as [H1|H1].
    + unfold upd. cbn [Z.eqb Pos.eqb]. rewrite E2. destruct (Z.ltb_spec 0 q); lia.
    + rewrite E1, E2. destruct (Z.ltb_spec 0 q); lia.
  - destruct (Z.ltb_spec (d 3) q); [lia|]. destruct (Z.ltb_spec 0 (d 3 - d 3)) as [H1|H1]; [lia|]. rewrite E1, E2. destruct (Z.ltb_spec 0 q); lia.
Qed.
Lemma chen_two z r f : exists g, chen_loop z (S r) 2 f = Done g /\ (submodular 2 f -> same 2 g f) /\ (~ submodular 2 f -> g 1 + g 2 = f 0 + f 3).
Proof.
  destruct (check_submodular 2 f) eqn:E.
  - exists f. cbn [chen_loop]. rewrite E. split; [reflexivity|]. apply check_iff in E; [|lia]. split; [intros _ S _; reflexivity|tauto].
  - assert (V : f 1 + f 2 < f 0 + f 3). { apply Z.nle_gt. intros X. apply local_2 in X. apply check_local in X. congruence. }
    destruct (lower_bound_ok z 2 f ltac:(lia)) as (g & d & Eg & L). 
    assert (Lw := L). destruct L as (L1 & L2 & _ & _).
    assert (W : forall S, 0 <= S < 4 -> within 2 S) by (intros S H; exact H).
    assert (G0 : g 0 = f 0). { destruct (L2 0 (W 0 ltac:(lia)) ltac:(cbn; lia)) as (_ & _ & _ & [X|(i & j & _ & _ & _ & B & _)]); [exact X|rewrite Z.bits_0 in B; discriminate]. }
    assert (O : forall S, S = 1 \/ S = 2 -> g S = f S).
    { intros S HS. destruct (L2 S (W S ltac:(lia)) ltac:(destruct HS as [->| ->]; cbn; lia)) as (_ & _ & _ & [X|(i & j & Hi & Hj & Hij & Bi & Bj & _)]); [exact X|].
      assert (i = 0) by lia. assert (j = 1) by lia. subst. destruct HS as [->| ->]; discriminate. }
    assert (G1 := O 1 ltac:(lia)). assert (G2 := O 2 ltac:(lia)).
    assert (G3 : g 3 = f 1 + f 2 - f 0).
    { destruct (L2 3 (W 3 ltac:(lia)) ltac:(cbn; lia)) as (X0 & Y & _ & [X|(i & j & Hi & Hj & Hij & Bi & Bj & X)]).
      - assert (Q := Y 0 1 ltac:(lia) ltac:(lia) ltac:(lia) eq_refl eq_refl). change (both 3 0 1) with 0 in Q. change (minus 3 0) with 2 in Q. change (minus 3 1) with 1 in Q. lia.
      - assert (i = 0) by lia. assert (j = 1) by lia. subst. change (both 3 0 1) with 0 in X. change (minus 3 0) with 2 in X. change (minus 3 1) with 1 in X. lia. }
    cbn [chen_loop]. rewrite E, Eg. cbn [bind fst]. set (dd := chen_diff 2 (fun s => f s - g s)).
    set (e := f 0 + f 3 - f 1 - f 2).
    assert (D : dd 0 = 0 /\ dd 3 = e /\ dd 1 + dd 2 = e).
    { destruct (chen_diff_ok 2 (fun s => f s - g s)) as [_ B]. fold dd in B. assert (D3 : dd 3 = e) by (rewrite B by (change (2 ^ 2) with 4; lia); unfold e; lia).
      split; [rewrite B by (change (2 ^ 2) with 4; lia); lia|]. split; [exact D3|].
      replace e with (f 3 - g 3) by (unfold e; lia). apply (chen_two_values (fun s => f s - g s)); unfold e in *; lia. }
    destruct D as (D0 & D3 & D12). exists (fun s => g s + dd s).
    assert (C : check_submodular 2 (fun s => g s + dd s) = true) by (apply check_local, local_2; unfold e in *; lia). destruct r; cbn [chen_loop]; rewrite C; (split; [reflexivity|]); (split; [intros X; apply check_iff in X; [congruence|lia]|intros _; unfold e in *; lia]).
Qed.

(* in terms of the specification *)
Lemma done_inj {A} (a b : A) : Done a = Done b -> b = a.
Proof. intros H. congruence. Qed.
Lemma next_perm_size z v : 0 < v < 2 ^ 31 -> exists v', next_perm z v = Done v' /\ v < v' < 2 ^ 32 /\ size 32 v' = size 32 v /\ (forall w, v < w < v' -> size 32 w <> size 32 v).
Proof.
  intros H. destruct (next_perm_ok z v H) as (v' & E & L & P & M). assert (W : within 32 v').
  { assert (E' := E). unfold next_perm in E'. destruct v as [|p|p]; try lia. cbn [ctz bind] in E'. apply done_inj in E'. rewrite E'. assert (C := ctzp_nonneg p). apply within_lor; [lia|apply Z.mod_pos_bound; lia|].
    match goal with |- within 32 (Z.shiftr ?x _) => assert (Q : 0 <= x < 2 ^ 32) by (apply Z.mod_pos_bound; lia); rewrite Z.shiftr_div_pow2 by lia; split; [apply Z.div_pos; [lia|apply pow_pos; lia]|] end.
    eapply Z.le_lt_trans; [|apply Q]. apply Z.div_le_upper_bound; [apply pow_pos; lia|]. assert (0 < 2 ^ (ctzp p + 1)) by (apply pow_pos; lia). nia. }
  assert (L31 : 2 ^ 31 < 2 ^ 32) by (apply Z.pow_lt_mono_r; lia).
  exists v'. split; [exact E|]. unfold within in W. split; [lia|]. rewrite !size_pc by (unfold within; lia). split; [exact P|]. intros w Hw. rewrite size_pc by (unfold within; lia). apply M. exact Hw.
Qed.
Lemma walk_visits z n k : 0 <= n < 32 -> 1 <= k <= n -> exists l, walk z (turns n) (2 ^ n - 1) (2 ^ k - 1) (@cons Z) [] = Done l /\ NoDup l /\ (forall S, In S l <-> within n S /\ size n S = k).
Proof.
  intros Hn Hk. destruct (walk_level z n k Hn Hk) as (l & A & ND & B). exists (rev l). split; [|split].
  - rewrite A. f_equal. enough (G : forall a, fold_left (fun st s => s :: st) l a = rev l ++ a) by (rewrite G; apply app_nil_r). clear. induction l as [|x l IH]; intros a; cbn; [reflexivity|]. rewrite IH, <- app_assoc. reflexivity.
  - apply NoDup_rev. exact ND.
  - intros S. rewrite <- in_rev, B. split; intros [W P]; (split; [exact W|]); rewrite size_pc in * by (lia || assumption); exact P.
Qed.
Lemma lower_all z n f : 0 <= n < 32 -> exists g d, lower_bound z n f false = Done (g, d) /\ contained n g f /\ below n g f /\ submodular n g /\
  (forall S, within n S -> f S - g S <= d) /\ (d = 0 \/ exists S, within n S /\ d = f S - g S) /\ (d = 0 <-> submodular n f) /\
  (forall S, within n S -> g S = f S \/ exists i j, i <> j /\ Z.testbit S i = true /\ Z.testbit S j = true /\
     g S + g (Z.land (S - 2 ^ i) (S - 2 ^ j)) = g (S - 2 ^ i) + g (S - 2 ^ j)).
Proof.
  intros Hn. destruct (lower_bound_ok z n f Hn) as (g & d & E & L). exists g, d. split; [exact E|]. destruct (lowered_pc n n f g d L ltac:(lia) ltac:(lia)) as (A1 & A2 & A3 & A4 & A5 & A6).
  repeat (split; [assumption|]). split; [split|].
  - intros ->. intros A B HA HB. specialize (A3 A B HA HB). assert (X : forall S, within n S -> f S <= g S) by (intros S W; specialize (A4 S W); lia).
    assert (X1 := X _ (within_lor n A B ltac:(lia) HA HB)). assert (X2 := X _ (within_land n A B ltac:(lia) HA)). assert (Y1 := A2 A HA). assert (Y2 := A2 B HB). lia.
  - intros Sub. apply (lowered_kept n f g d ltac:(lia) L Sub).
  - intros S W. destruct L as (_ & B & _). destruct (B S W (pc_bound n S ltac:(lia) W)) as (_ & _ & _ & [X|(i & j & Hi & Hj & Hij & Ei & Ej & X)]); [left; exact X|right].
    exists i, j. unfold both, minus in X. rewrite !flip_in in X by (lia || assumption). split; [lia|]. split; [assumption|]. split; assumption.
Qed.
