From Coq Require Import ZArith List Bool Arith Lia Permutation.
From Verif Require Import Model.Strings Spec.Strings Proofs.Strings Model.Groups Spec.Groups.
Import ListNotations.

Section Trees.
Context {A : Type}.
Fixpoint tree_ind' (P : tree A -> Prop) (HL : forall a, P (Leaf a)) (HG : forall b l, Forall P l -> P (Group b l)) (t : tree A) : P t :=
  match t with
  | Leaf a => HL a
  | Group b l => HG b l ((fix go l : Forall P l := match l with [] => Forall_nil _ | t :: r => Forall_cons _ (tree_ind' P HL HG t) (go r) end) l)
  end.

Lemma push_leaves : forall (t : tree A) v, push_batches t v = v ++ leaves t.
Proof.
  induction t as [a|b l IH] using tree_ind'; intros v; cbn [push_batches leaves]; [reflexivity|].
  revert v. induction IH as [|t r H _ IHr]; intros v; cbn [fold_left flat_map]; [now rewrite app_nil_r|].
  rewrite IHr, H, <- app_assoc. reflexivity.
Qed.

Lemma batches : forall b (l : list (tree A)), getBatches (Group b l) = leaves (Group b l).
Proof. intros b l. change (getBatches (Group b l)) with (push_batches (Group b l) []). now rewrite push_leaves. Qed.

Lemma sum_app : forall a b, sum (a ++ b) = (sum a + sum b)%Z.
Proof. unfold sum. induction a as [|x a IH]; intros b; cbn [app fold_right]; [reflexivity|]. rewrite IH. lia. Qed.

Lemma total_mod : forall (f : A -> Z) t, u64 (total f t) = u64 (sum (map f (leaves t))).
Proof.
  intros f. induction t as [a|b l IH] using tree_ind'; cbn [total leaves map]; [unfold sum; cbn; now rewrite Z.add_0_r|].
  assert (G : forall s, u64 (fold_left (fun s t => u64 (s + total f t)) l s) = u64 (s + sum (map f (flat_map leaves l)))).
  { induction IH as [|t r H _ IHr]; intros s; cbn [fold_left flat_map]; [unfold sum; cbn; now rewrite Z.add_0_r|].
    rewrite IHr, map_app, sum_app. unfold u64 in *.
    rewrite Z.add_mod_idemp_l by lia.
    rewrite <- Z.add_assoc, (Z.add_comm (total f t)), Z.add_assoc, <- Z.add_mod_idemp_r, H, Z.add_mod_idemp_r by lia. f_equal. lia. }
  apply (G 0%Z).
Qed.

Lemma u64_u64 v : u64 (u64 v) = u64 v.
Proof. unfold u64. now rewrite Z.mod_mod by lia. Qed.

Lemma fold_u64 : forall {B} (g : Z -> B -> Z) (l : list B) s, u64 s = s -> (forall s b, u64 (g s b) = g s b) -> u64 (fold_left g l s) = fold_left g l s.
Proof. intros B g l. induction l as [|b l IH]; intros s Hs Hg; cbn [fold_left]; [exact Hs|]. apply IH; auto. Qed.

Lemma total_leaves : forall (f : A -> Z) b l, total f (Group b l) = u64 (sum (map f (leaves (Group b l)))).
Proof.
  intros f b l. rewrite <- total_mod. cbn [total]. symmetry. apply fold_u64; [reflexivity|]. intros. apply u64_u64.
Qed.

Lemma total_exact : forall (f : A -> Z) b l, (0 <= sum (map f (leaves (Group b l))) < 2 ^ 64)%Z -> total f (Group b l) = sum (map f (leaves (Group b l))).
Proof. intros f b l H. rewrite total_leaves. apply Z.mod_small. exact H. Qed.

Lemma final_none : forall (f : A -> option Z) t, final f t = None <-> exists a, In a (leaves t) /\ f a = None.
Proof.
  intros f. induction t as [a|b l IH] using tree_ind'; cbn [final leaves].
  { split; [intros H; exists a; cbn; auto|intros (x & [ -> | [] ] & E); exact E]. }
  assert (N : forall l, fold_left (fun s t => match s with None => None | Some s => match final f t with None => None | Some v => Some (u64 (s + v)) end end) l None = None).
  { clear. induction l; cbn; auto. }
  assert (G : forall s, fold_left (fun s t => match s with None => None | Some s => match final f t with None => None | Some v => Some (u64 (s + v)) end end) l (Some s) = None <-> exists a, In a (flat_map leaves l) /\ f a = None).
  { induction IH as [|t r H _ IHr]; intros s; cbn [fold_left flat_map].
    - split; [discriminate|intros (a & [] & _)].
    - destruct (final f t) as [v|] eqn:F.
      + rewrite IHr. split; intros (a & I & E); exists a; split; auto; [apply in_or_app; auto|].
        apply in_app_or in I. destruct I as [I|I]; auto. exfalso. assert (X : Some v = None) by (apply H; exists a; auto). discriminate X.
      + rewrite N. destruct H as [H _]. destruct (H eq_refl) as (a & I & E). split; [|reflexivity]. intros _. exists a. split; auto. apply in_or_app; auto. }
  apply G.
Qed.

Lemma final_total : forall (f : A -> option Z) (g : A -> Z) t, (forall a, In a (leaves t) -> f a = Some (g a)) -> final f t = Some (total g t).
Proof.
  intros f g. induction t as [a|b l IH] using tree_ind'; cbn [final leaves total]; intros H; [apply H; cbn; auto|].
  assert (G : forall s, fold_left (fun s t => match s with None => None | Some s => match final f t with None => None | Some v => Some (u64 (s + v)) end end) l (Some s) = Some (fold_left (fun s t => u64 (s + total g t)) l s)).
  { revert H. induction IH as [|t r Ht _ IHr]; intros H s; cbn [fold_left flat_map] in *; [reflexivity|].
    rewrite Ht by (intros; apply H, in_or_app; auto). apply IHr. intros; apply H, in_or_app; auto. }
  apply G.
Qed.

Lemma any_leaf : forall (f : A -> bool) t, any f t = true <-> exists a, In a (leaves t) /\ f a = true.
Proof.
  intros f. induction t as [a|b l IH] using tree_ind'; cbn [any leaves].
  { split; [intros H; exists a; cbn; auto|intros (x & [ -> | [] ] & E); exact E]. }
  rewrite existsb_exists. split.
  - intros (t & I & E). rewrite Forall_forall in IH. apply IH in E; auto. destruct E as (a & Ia & E). exists a. split; auto. apply in_flat_map. eauto.
  - intros (a & I & E). apply in_flat_map in I. destruct I as (t & I & Ia). exists t. split; auto. rewrite Forall_forall in IH. apply IH; eauto.
Qed.

Definition visit (ok : A -> bool) := fix go (l : list (tree A)) : list A * bool := match l with [] => ([], true) | t :: r => let '(v, b) := each ok t in if b then let '(w, c) := go r in (v ++ w, c) else (v, false) end.
Definition reaches (ok : A -> bool) (l : list A) (r : list A * bool) : Prop :=
  (snd r = true /\ fst r = l /\ (forall a, In a l -> ok a = true)) \/ (snd r = false /\ exists v a w, fst r = v ++ [a] /\ l = v ++ a :: w /\ ok a = false /\ forall x, In x v -> ok x = true).

Lemma each_leaves : forall (ok : A -> bool) t, reaches ok (leaves t) (each ok t).
Proof.
  intros ok. induction t as [a|b l IH] using tree_ind'; cbn [leaves].
  - cbn [each]. destruct (ok a) eqn:E; [left|right]; cbn [fst snd]; (split; [reflexivity|]).
    + split; [reflexivity|]. intros x [ <- | [] ]. exact E.
    + exists [], a, []. repeat split; auto; intros x [].
  - change (each ok (Group b l)) with (visit ok l). induction IH as [|t r H _ IHr]; cbn [visit flat_map].
    + left. cbn. repeat split; auto; intros x [].
    + destruct (each ok t) as [v b']. destruct H as [(S & F & H)|(S & p & a & w & F & L & Ha & H)]; cbn [fst snd] in *; subst.
      * fold (visit ok). destruct (visit ok r) as [w c]. destruct IHr as [(S & F & H')|(S & p & a & w' & F & L & Ha & H')]; cbn [fst snd] in *; subst.
        -- left. cbn. repeat split; auto. intros x I. apply in_app_or in I. destruct I; auto.
        -- right. cbn. split; auto. exists (leaves t ++ p), a, w'. rewrite L, <- !app_assoc. repeat split; auto. intros x I. apply in_app_or in I. destruct I; auto.
      * right. cbn. split; auto. exists p, a, (w ++ flat_map leaves r). rewrite L, <- app_assoc. repeat split; auto.
Qed.

Definition lines (v : list (option A)) : list A := flat_map (fun o => match o with Some a => [a] | None => [] end) v.
Definition heads (v : list (option A)) : nat := length (filter (fun o => match o with Some _ => false | None => true end) v).
Definition outputs (t : tree A) (o : option (list (option A))) : Prop :=
  match o with Some v => sound t /\ lines v = leaves t /\ heads v = length (plain t) | None => ~ sound t end.
Definition prints := fix go (l : list (tree A)) : option (list (option A)) := match l with [] => Some [] | t :: r => match print t, go r with Some v, Some w => Some (v ++ w) | _, _ => None end end.

Lemma print_outputs : forall t : tree A, outputs t (print t).
Proof.
  induction t as [a|b l IH] using tree_ind'.
  - cbn. repeat split. intros l [].
  - assert (G : match prints l with Some v => (forall t, In t l -> sound t) /\ lines v = flat_map leaves l /\ heads v = length (flat_map plain l) | None => exists t, In t l /\ ~ sound t end).
    { induction IH as [|t r H _ IHr]; cbn [prints flat_map]; [repeat split; intros t []|]. fold prints.
      destruct (print t) as [v|]; cbn [outputs] in H.
      - destruct (prints r) as [w|].
        + destruct H as (H1 & H2 & H3), IHr as (R1 & R2 & R3). split; [|split].
          * intros x [ <- |I]; auto.
          * unfold lines in *. rewrite flat_map_app, H2, R2. reflexivity.
          * unfold heads in *. rewrite filter_app, !app_length, H3, R3. reflexivity.
        + destruct IHr as (x & I & N). exists x. split; auto. right; auto.
      - exists t. split; auto. left; auto. }
    assert (S : forall t, In t l -> sound (Group b l) -> sound t).
    { intros t I H k K. apply H. cbn [groups]. right. apply in_flat_map. eauto. }
    destruct b.
    + cbn [print]. destruct l as [|t [|t' r]].
      * cbn. intros H. specialize (H [] (or_introl eq_refl)). discriminate H.
      * inversion IH as [|? ? Ht _]; subst. destruct (print t) as [v|]; cbn [outputs] in *.
        -- destruct Ht as (H1 & H2 & H3). split; [|split].
           ++ intros k [K|K]; [inversion K; reflexivity|]. cbn [flat_map] in K. rewrite app_nil_r in K. apply H1, K.
           ++ cbn. rewrite app_nil_r. exact H2.
           ++ unfold plain. cbn [groups filter fst negb flat_map]. rewrite app_nil_r. exact H3.
        -- intros H. apply Ht. apply S; [left; reflexivity|exact H].
      * cbn [outputs]. intros H. specialize (H (t :: t' :: r) (or_introl eq_refl)). discriminate H.
    + change (print (Group false l)) with (match prints l with Some v => Some (None :: v) | None => None end). destruct (prints l) as [v|]; cbn [outputs].
      * destruct G as (G1 & G2 & G3). split; [|split].
        -- intros k [K|K]; [discriminate K|]. apply in_flat_map in K. destruct K as (t & I & K). eapply G1; eauto.
        -- exact G2.
        -- unfold plain. cbn [groups filter fst negb length]. unfold heads in *. cbn [filter length]. f_equal. rewrite G3. clear.
           induction l as [|t r IH]; cbn [flat_map]; [reflexivity|]. rewrite filter_app, !app_length, IH. reflexivity.
      * destruct G as (t & I & N). intros H. apply N. eapply S; eauto.
Qed.
End Trees.

(** * Paths *)
Lemma slash_no c : is_slash c = false <-> c <> 47 /\ c <> 92.
Proof. unfold is_slash. rewrite orb_false_iff, !Nat.eqb_neq. reflexivity. Qed.

Lemma last_in {A} (l : list A) d : l <> [] -> In (last l d) l.
Proof. induction l as [|a l IH]; intros H; [contradiction|]. destruct l; [left; reflexivity|]. right. apply IH. discriminate. Qed.

Lemma add_slash_name n : name_ok n -> add_slash n = n ++ [47].
Proof.
  intros (E & S & B). destruct n as [|c n]; [contradiction|].
  assert (H : is_slash (last (c :: n) 0) = false).
  { apply slash_no. split; intros X; [apply S|apply B]; rewrite <- X; apply last_in; discriminate. }
  unfold add_slash. rewrite H. repeat destruct (list_eq_dec _ _ _); auto. discriminate.
Qed.

Lemma last_snoc {A} (l : list A) x d : last (l ++ [x]) d = x.
Proof. apply last_last. Qed.

Lemma add_slash_done p : add_slash (p ++ [47]) = p ++ [47].
Proof.
  assert (H : is_slash (last (p ++ [47]) 0) = true) by (rewrite last_snoc; reflexivity).
  assert (N : p ++ [47] <> [46]) by (intros E; destruct p as [|c [|c' p]]; discriminate E).
  assert (M : p ++ [47] <> [46; 46]) by (intros E; destruct p as [|c [|c' [|c'' p]]]; discriminate E).
  unfold add_slash. change (is_slash (last (p ++ [47]) 0) = true) in H. unfold char in *. rewrite H. repeat destruct (list_eq_dec _ _ _); auto; try contradiction.
Qed.

Lemma after_name : forall n acc, ~ In 47 n -> ~ In 92 n -> after_slash n acc = acc.
Proof.
  induction n as [|c n IH]; intros acc S B; [reflexivity|]. cbn [after_slash].
  replace (is_slash c) with false by (symmetry; apply slash_no; split; intros ->; [apply S|apply B]; left; reflexivity).
  apply IH; intros I; [apply S|apply B]; right; auto.
Qed.

Lemma after_path : forall p n acc, ~ In 47 n -> ~ In 92 n -> after_slash (p ++ 47 :: n) acc = n.
Proof.
  induction p as [|c p IH]; intros n acc S B; cbn [app after_slash]; [apply (after_name n n); auto|].
  destruct (is_slash c); apply IH; auto.
Qed.

Lemma last_name_path p n : name_ok n -> last_name ((p ++ [47]) ++ n) = n.
Proof. intros (_ & S & B). unfold last_name. rewrite <- app_assoc. cbn [app]. apply after_path; auto. Qed.

Lemma skip_iff skip n : string_contains_token n skip = true <-> skipped skip n.
Proof. apply contains_token_iff. Qed.

Lemma skip_no skip n : string_contains_token n skip = false <-> ~ skipped skip n.
Proof. rewrite <- skip_iff. destruct (string_contains_token n skip); split; intros; congruence. Qed.

Section Parse.
Variable subdirs : str -> list str.
Variable root : str.
Variable skip : list str.
Hypothesis names : forall p n, In n (subdirs p) -> name_ok n.

Definition expected (d : str) : list batch :=
  if string_contains_token d skip then []
  else match subdirs (root ++ d ++ [47]) with
       | [] => [Batch d (d ++ [47]) (root ++ d ++ [47])]
       | ns => map (fun n => Batch n (d ++ [47] ++ n ++ [47]) (root ++ d ++ [47] ++ n ++ [47])) (filter (fun n => negb (string_contains_token n skip)) ns)
       end.

Lemma group_leaves d : name_ok d -> leaves (parse_group subdirs root skip d (add_slash d)) = expected d.
Proof.
  intros D. unfold parse_group, expected. rewrite (add_slash_name d D). unfold make, getSubDirs. cbn [b_data b_rel].
  rewrite !add_slash_done, app_assoc, add_slash_done, <- app_assoc.
  destruct (string_contains_token d skip); [reflexivity|].
  pose proof (names (root ++ d ++ [47])) as N. unfold str, char in *.
  match goal with |- context [map ?g (?s ?p)] => remember (s p) as l eqn:El end. destruct l as [|n ns]; [reflexivity|].
  assert (M : forall (g : list nat -> list nat) (a : tree batch) h, match map g (n :: ns) with [] => a | s :: k => Group false (flat_map h (s :: k)) end = Group false (flat_map h (map g (n :: ns)))) by reflexivity.
  rewrite M. clear M El. remember (n :: ns) as l eqn:L.
  match goal with |- _ = ?r => assert (R : r = map (fun m => Batch m (d ++ [47] ++ m ++ [47]) (root ++ d ++ [47] ++ m ++ [47])) (filter (fun m => negb (string_contains_token m skip)) l)) by (rewrite L; reflexivity) end.
  rewrite R. clear R L.
  clear n ns. cbn [leaves]. induction l as [|n l IH]; [reflexivity|].
  assert (Hn : name_ok n) by (apply N; left; reflexivity).
  cbn [map flat_map filter]. rewrite (app_assoc root d), last_name_path by exact Hn. rewrite flat_map_app, <- (app_assoc root d), IH by (intros; apply N; right; auto).
  destruct (string_contains_token n skip); cbn [negb map flat_map leaves app]; [reflexivity|].
  rewrite (add_slash_name n Hn), (app_assoc (d ++ [47]) n), add_slash_done, <- !app_assoc. reflexivity.
Qed.

Lemma parse_leaves dirs : (forall d, In d dirs -> name_ok d) -> leaves (parse subdirs root skip dirs) = flat_map expected dirs.
Proof.
  intros D. unfold parse. cbn [leaves]. induction dirs as [|d r IH]; [reflexivity|]. cbn [map flat_map].
  rewrite group_leaves, IH; auto; [intros; apply D; right; auto|apply D; left; reflexivity].
Qed.

Lemma expected_held d b : In b (expected d) <-> held subdirs root skip d b.
Proof.
  unfold expected. destruct (string_contains_token d skip) eqn:S.
  - split; [intros []|]. intros H. assert (~ skipped skip d) by (inversion H; auto). exfalso. rewrite <- skip_iff in *. congruence.
  - apply skip_no in S. split.
    + destruct (subdirs (root ++ d ++ [47])) as [|n ns] eqn:E.
      * intros [ <- | [] ]. apply H_itself; auto.
      * intros I. apply in_map_iff in I. destruct I as (m & <- & I). apply filter_In in I. destruct I as (I & F). apply H_sub; auto; [rewrite E; exact I|]. apply skip_no. destruct (string_contains_token m skip); auto; discriminate.
    + intros H. inversion H; subst.
      * match goal with E : subdirs _ = [] |- _ => rewrite E end. left; reflexivity.
      * destruct (subdirs (root ++ d ++ [47])) as [|m ms]; [contradiction|]. apply in_map_iff. exists n. split; auto. apply filter_In. split; auto. apply negb_true_iff, skip_no; auto.
Qed.

Lemma parse_held dirs : (forall d, In d dirs -> name_ok d) -> forall b, In b (leaves (parse subdirs root skip dirs)) <-> exists d, In d dirs /\ held subdirs root skip d b.
Proof.
  intros D b. rewrite parse_leaves by exact D. rewrite in_flat_map. split; intros (d & I & H); exists d; split; auto; apply expected_held; auto.
Qed.

Lemma cut_slash : forall (a b x y : str), ~ In 47 a -> ~ In 47 b -> a ++ 47 :: x = b ++ 47 :: y -> a = b /\ x = y.
Proof.
  induction a as [|c a IH]; intros [|c' b] x y A B E; cbn [app] in E; inversion E; subst; auto.
  - exfalso. apply B. left; reflexivity.
  - exfalso. apply A. left; reflexivity.
  - destruct (IH b x y) as [ -> -> ]; auto; intros I; [apply A|apply B]; right; auto.
Qed.

Lemma held_path d e b b' : name_ok d -> name_ok e -> held subdirs root skip d b -> held subdirs root skip e b' -> b_data b = b_data b' -> d = e /\ b = b'.
Proof.
  intros (_ & D & _) (_ & E & _) H H' P. inversion H; subst; inversion H'; subst; cbn [b_data] in P; apply app_inv_head in P; cbn [app] in P; apply cut_slash in P; auto; destruct P as (<- & P); split; auto.
  - exfalso. destruct n; discriminate P.
  - exfalso. destruct n; discriminate P.
  - apply app_inv_tail in P. subst. reflexivity.
Qed.

Lemma NoDup_map_in {X Y} (f : X -> Y) (l : list X) : (forall x y, In x l -> In y l -> f x = f y -> x = y) -> NoDup l -> NoDup (map f l).
Proof.
  intros H N. induction N as [|x l X' N IH]; cbn; constructor.
  - intros I. apply in_map_iff in I. destruct I as (y & E & I). apply X'. rewrite <- (H y x); auto; [right; auto|left; reflexivity].
  - apply IH. intros; apply H; auto; right; auto.
Qed.

Lemma NoDup_cat {X} (l k : list X) : NoDup l -> NoDup k -> (forall x, In x l -> ~ In x k) -> NoDup (l ++ k).
Proof.
  induction 1 as [|x l H N IH]; intros K D; cbn; auto. constructor.
  - intros I. apply in_app_or in I. destruct I; [auto|]. apply (D x); auto. left; reflexivity.
  - apply IH; auto. intros y I. apply D. right; auto.
Qed.

Lemma parse_paths dirs : (forall d, In d dirs -> name_ok d) -> NoDup dirs -> (forall p, NoDup (subdirs p)) -> NoDup (map b_data (leaves (parse subdirs root skip dirs))).
Proof.
  intros D N S. apply NoDup_map_in.
  - intros b b' I I' E. apply parse_held in I; auto. apply parse_held in I'; auto. destruct I as (d & I & H), I' as (d' & I' & H'). apply (held_path d d' b b'); auto.
  - rewrite parse_leaves by exact D. induction N as [|d r X N IH]; cbn [flat_map]; [constructor|]. apply NoDup_cat.
    + unfold expected. destruct (string_contains_token d skip); [constructor|]. pose proof (S (root ++ d ++ [47])) as U. destruct (subdirs (root ++ d ++ [47])) as [|n ns]; [repeat constructor; auto|].
      apply NoDup_map_in; [intros x y _ _ E; congruence|]. apply NoDup_filter; auto.
    + apply IH. intros; apply D; right; auto.
    + intros b I J. apply in_flat_map in J. destruct J as (e & J & K). apply expected_held in I. apply expected_held in K. apply X. destruct (held_path d e b b) as [ -> _ ]; auto; apply D; [left; reflexivity|right; auto].
Qed.

Lemma group_sound d : sound (parse_group subdirs root skip d (add_slash d)) <-> ~ skipped skip d.
Proof.
  unfold parse_group. destruct (string_contains_token d skip) eqn:S.
  - apply skip_iff in S. split; [|intros; contradiction]. intros H. specialize (H [] (or_introl eq_refl)). discriminate H.
  - apply skip_no in S. split; auto. intros _. destruct (getSubDirs subdirs (b_data (make root d (add_slash d)))).
    + intros l [E|E]; [inversion E; reflexivity|]. cbn in E. contradiction.
    + intros k [E|E]; [discriminate E|]. exfalso. apply in_flat_map in E. destruct E as (t & I & E). apply in_flat_map in I. destruct I as (p & _ & I).
      cbv zeta in I. destruct (string_contains_token (last_name p) skip); [destruct I|]. destruct I as [ <- | [] ]. destruct E.
Qed.

Lemma parse_sound dirs : sound (parse subdirs root skip dirs) <-> forall d, In d dirs -> ~ skipped skip d.
Proof.
  unfold parse. split.
  - intros H d I. apply group_sound. intros l K. apply H. cbn [groups]. right. apply in_flat_map. exists (parse_group subdirs root skip d (add_slash d)). split; auto. apply in_map_iff. eauto.
  - intros H l [E|E]; [discriminate E|]. apply in_flat_map in E. destruct E as (t & I & E). apply in_map_iff in I. destruct I as (d & <- & I). apply (proj2 (group_sound d)); auto.
Qed.

Lemma parse_prints dirs : print (parse subdirs root skip dirs) <> None <-> forall d, In d dirs -> ~ skipped skip d.
Proof.
  rewrite <- parse_sound. pose proof (print_outputs (parse subdirs root skip dirs)) as P. destruct (print (parse subdirs root skip dirs)) as [v|]; cbn [outputs] in P.
  - split; [intros _; apply P|discriminate].
  - split; [intros H; now destruct H|intros; contradiction].
Qed.
End Parse.
