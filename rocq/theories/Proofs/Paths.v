From Coq Require Import ZArith List Bool Arith Lia Permutation.
From Verif Require Import Model.Strings Spec.Strings Proofs.Strings Model.Groups Spec.Groups Proofs.Groups Model.Paths Spec.Names Proofs.Names Spec.Paths.
Import ListNotations.
Open Scope nat_scope.

Definition kept_b (remove keep : list str) (p : str) : bool := negb (string_contains_token p remove) && ((match keep with [] => true | _ => false end) || string_contains_token p keep).

Lemma filter_paths_eq : forall paths remove keep result, filter_paths paths remove keep result = result ++ filter (kept_b remove keep) paths.
Proof.
  induction paths as [|p r IH]; intros remove keep result; cbn [filter_paths filter]; [now rewrite app_nil_r|].
  assert (E : negb (match remove with [] => true | _ => false end) && string_contains_token p remove = string_contains_token p remove) by (destruct remove; reflexivity).
  rewrite E. unfold kept_b at 1. destruct (string_contains_token p remove); cbn [negb andb]; [apply IH|].
  destruct ((match keep with [] => true | _ => false end) || string_contains_token p keep); rewrite IH; [rewrite <- app_assoc|]; reflexivity.
Qed.

Lemma filter_eq paths remove keep : filterFilePaths paths remove keep = filter (kept_b remove keep) paths.
Proof. apply filter_paths_eq. Qed.

Lemma kept_iff remove keep p : kept_b remove keep p = true <-> kept remove keep p.
Proof.
  unfold kept_b, kept, matches. rewrite andb_true_iff, negb_true_iff, orb_true_iff, !contains_token_iff.
  assert (N : string_contains_token p remove = false <-> ~ exists t, In t remove /\ substring_of t p).
  { rewrite <- contains_token_iff. destruct (string_contains_token p remove); split; intros; congruence. }
  rewrite N. assert (K : (match keep with [] => true | _ => false end = true) <-> keep = []) by (destruct keep; split; intros; congruence). rewrite K. reflexivity.
Qed.

Lemma filter_part {A} (f : A -> bool) l : part (filter f l) l.
Proof. induction l as [|a l IH]; cbn; [constructor|]. destruct (f a); constructor; exact IH. Qed.

Lemma kept_all paths remove keep p : In p (filterFilePaths paths remove keep) <-> In p paths /\ kept remove keep p.
Proof. rewrite filter_eq, filter_In, kept_iff. reflexivity. Qed.

Lemma kept_count eqd paths remove keep p : kept remove keep p -> count_occ eqd (filterFilePaths paths remove keep) p = count_occ eqd paths p.
Proof.
  rewrite filter_eq. intros K. apply kept_iff in K. induction paths as [|q r IH]; [reflexivity|]. cbn [filter count_occ].
  destruct (eqd q p) as [ -> | N ].
  - rewrite K. cbn [count_occ]. destruct (eqd p p); [|contradiction]. now rewrite IH.
  - destruct (kept_b remove keep q); cbn [count_occ]; [destruct (eqd q p); [contradiction|]|]; exact IH.
Qed.

Lemma filter_twice_eq {A} (f g : A -> bool) l : (forall x, f x = true -> g x = true) -> filter g (filter f l) = filter f l.
Proof.
  intros H. induction l as [|a l IH]; [reflexivity|]. cbn [filter]. destruct (f a) eqn:E; cbn [filter]; [rewrite (H a E), IH|]; auto.
Qed.

Lemma filter_idempotent paths remove keep : filterFilePaths (filterFilePaths paths remove keep) remove keep = filterFilePaths paths remove keep.
Proof. rewrite !filter_eq. apply filter_twice_eq. auto. Qed.

Lemma filter_removals paths r r' : filterFilePaths (filterFilePaths paths r []) r' [] = filterFilePaths paths (r ++ r') [].
Proof.
  rewrite !filter_eq. induction paths as [|p l IH]; [reflexivity|]. cbn [filter].
  assert (E : kept_b (r ++ r') [] p = kept_b r [] p && kept_b r' [] p).
  { unfold kept_b. rewrite !andb_true_r. assert (X : string_contains_token p (r ++ r') = string_contains_token p r || string_contains_token p r').
    { apply eq_true_iff_eq. rewrite orb_true_iff, !contains_token_iff. split.
      - intros (t & I & S). apply in_app_or in I. destruct I; [left|right]; eauto.
      - intros [(t & I & S)|(t & I & S)]; exists t; split; auto; apply in_or_app; auto. }
    rewrite X. apply negb_orb. }
  rewrite E. destruct (kept_b r [] p); cbn [andb filter]; [|exact IH]. destruct (kept_b r' [] p); rewrite IH; reflexivity.
Qed.

(** * Listings *)
Lemma lt_iff : forall a b, str_lt a b = true <-> before a b.
Proof.
  induction a as [|x a IH]; intros [|y b]; cbn [str_lt before]; try (split; [discriminate|intros []]); try (split; auto; fail).
  rewrite orb_true_iff, andb_true_iff, Nat.ltb_lt, Nat.eqb_eq, IH. reflexivity.
Qed.

Lemma before_trans : forall a b c, before a b -> before b c -> before a c.
Proof.
  induction a as [|x a IH]; intros [|y b] [|z c]; cbn [before]; try tauto. intros [H|(-> & H)] [K|(-> & K)]; [left; lia|left; lia|left; lia|right; split; eauto].
Qed.
Lemma before_total : forall a b, before a b \/ a = b \/ before b a.
Proof.
  induction a as [|x a IH]; intros [|y b]; cbn [before]; auto. destruct (lt_eq_lt_dec x y) as [[H| -> ]|H]; auto.
  destruct (IH b) as [K|[ -> |K]]; auto.
Qed.

Lemma insert_perm p l : Permutation (insert p l) (p :: l).
Proof.
  induction l as [|q l IH]; cbn [insert]; [reflexivity|]. destruct (str_lt q p); [|reflexivity]. rewrite IH. apply perm_swap.
Qed.
Lemma sort_perm l : Permutation (sort l) l.
Proof. unfold sort. induction l as [|p l IH]; cbn [fold_right]; [constructor|]. rewrite insert_perm. now constructor. Qed.

Lemma insert_sorted p l : sorted l -> sorted (insert p l).
Proof.
  induction 1 as [|q l H S IH]; cbn [insert]; [constructor; [intros x []|constructor]|].
  destruct (str_lt q p) eqn:E.
  - apply lt_iff in E. constructor; [|exact IH]. intros x I. apply (Permutation_in _ (insert_perm p l)) in I. destruct I as [ <- |I]; [|auto].
    intros X. apply (before_irrefl q). eapply before_trans; eauto.
  - assert (N : ~ before q p) by (intros X; apply lt_iff in X; congruence). constructor; [|constructor; auto].
    intros x [ <- |I]; [exact N|]. intros X. destruct (before_total p q) as [K|[ -> |K]]; [|exact (H x I X)|contradiction].
    apply (H x I). eapply before_trans; eauto.
Qed.
Lemma sort_sorted l : sorted (sort l).
Proof. unfold sort. induction l; cbn; [constructor|]. apply insert_sorted. assumption. Qed.

Lemma sorted_unique : forall l m, sorted l -> sorted m -> Permutation l m -> l = m.
Proof.
  intros l m S. revert m. induction S as [|p l H S IH]; intros m M P; [symmetry; apply Permutation_nil; exact P|].
  destruct M as [|q m Hm M]; [symmetry in P; apply Permutation_nil in P; discriminate P|].
  assert (E : p = q).
  { destruct (before_total p q) as [K|[K|K]]; auto; exfalso.
    - assert (I : In p (q :: m)) by (eapply Permutation_in; [exact P|left; reflexivity]). destruct I as [I|I]; [subst; eapply before_irrefl; eauto|exact (Hm p I K)].
    - assert (I : In q (p :: l)) by (eapply Permutation_in; [symmetry; exact P|left; reflexivity]). destruct I as [I|I]; [subst; eapply before_irrefl; eauto|exact (H q I K)]. }
  subst q. f_equal. apply IH; auto. eapply Permutation_cons_inv; eauto.
Qed.

Lemma filter_perm {A} (f : A -> bool) l m : Permutation l m -> Permutation (filter f l) (filter f m).
Proof.
  induction 1 as [|a l m P IH|a b l|l m k P1 IH1 P2 IH2]; cbn [filter]; auto.
  - destruct (f a); auto.
  - destruct (f a), (f b); auto; apply perm_swap.
  - etransitivity; eauto.
Qed.

Lemma files_order dir es es' : Permutation es es' -> getFilesFromDir dir (Some es) = getFilesFromDir dir (Some es') /\ getSubDirsFromDir dir (Some es) = getSubDirsFromDir dir (Some es').
Proof.
  intros P. split; (apply sorted_unique; [apply sort_sorted|apply sort_sorted|]); unfold getFilesFromDir, getSubDirsFromDir; rewrite !sort_perm; apply Permutation_map, filter_perm, P.
Qed.

Lemma eqb_iff a b : str_eqb a b = true <-> a = b.
Proof. unfold str_eqb. destruct (list_eq_dec Nat.eq_dec a b); split; intros; congruence. Qed.
Lemma eqb_no a b : negb (str_eqb a b) = true <-> a <> b.
Proof. rewrite negb_true_iff. rewrite <- eqb_iff. destruct (str_eqb a b); split; intros; congruence. Qed.

Lemma files_in dir es p : In p (getFilesFromDir dir (Some es)) <-> exists n, In (n, Regular) es /\ n <> [84; 104; 117; 109; 98; 115; 46; 100; 98] /\ p = add_slash dir ++ n.
Proof.
  unfold getFilesFromDir. split.
  - intros I. apply (Permutation_in _ (sort_perm _)) in I. apply in_map_iff in I. destruct I as ([n k] & <- & I). apply filter_In in I. cbn [fst snd] in *. destruct I as (I & F). destruct k; try discriminate F. exists n. repeat split; auto. apply eqb_no in F. exact F.
  - intros (n & I & T & ->). apply (Permutation_in _ (Permutation_sym (sort_perm _))). apply in_map_iff. exists (n, Regular). split; auto. apply filter_In. cbn [fst snd]. split; auto. apply eqb_no. exact T.
Qed.
Lemma dirs_in dir es p : In p (getSubDirsFromDir dir (Some es)) <-> exists n, In (n, Directory) es /\ n <> [46] /\ n <> [46; 46] /\ p = add_slash dir ++ n.
Proof.
  unfold getSubDirsFromDir. split.
  - intros I. apply (Permutation_in _ (sort_perm _)) in I. apply in_map_iff in I. destruct I as ([n k] & <- & I). apply filter_In in I. cbn [fst snd] in *. destruct I as (I & F). destruct k; try discriminate F. apply andb_true_iff in F. destruct F as (F & G). exists n. apply eqb_no in F. apply eqb_no in G. auto.
  - intros (n & I & T & T' & ->). apply (Permutation_in _ (Permutation_sym (sort_perm _))). apply in_map_iff. exists (n, Directory). split; auto. apply filter_In. cbn [fst snd]. split; auto. apply andb_true_iff. split; apply eqb_no; assumption.
Qed.

Lemma NoDup_filter_fst {A B} (f : A * B -> bool) (l : list (A * B)) : NoDup (map fst l) -> NoDup (map fst (filter f l)).
Proof.
  induction l as [|a l IH]; intros H; [constructor|]. inversion H as [|? ? N D]; subst. cbn [filter]. destruct (f a); [|auto]. cbn [map]. constructor; auto.
  intros I. apply N. apply in_map_iff in I. destruct I as (x & E & I). apply filter_In in I. apply in_map_iff. exists x. split; [exact E|apply I].
Qed.
Lemma listing_nodup f dir (es : list (str * kind)) : NoDup (map fst es) -> NoDup (sort (map (fun e => add_slash dir ++ fst e) (filter f es))).
Proof.
  intros N. apply (Permutation_NoDup (Permutation_sym (sort_perm _))). rewrite <- (map_map fst (fun n => add_slash dir ++ n)). apply NoDup_map_in; [|apply NoDup_filter_fst; exact N].
  intros x y _ _ E. apply app_inv_head in E. exact E.
Qed.
Lemma listing_ok dir es : NoDup (map fst es) -> (sorted (getFilesFromDir dir (Some es)) /\ NoDup (getFilesFromDir dir (Some es))) /\ (sorted (getSubDirsFromDir dir (Some es)) /\ NoDup (getSubDirsFromDir dir (Some es))).
Proof. intros N. repeat split; try apply sort_sorted; apply listing_nodup; exact N. Qed.

(** adding a slash *)
Lemma add_slash_idem p : add_slash (add_slash p) = add_slash p.
Proof.
  unfold add_slash at 2 3. destruct (list_eq_dec Nat.eq_dec p []) as [|N]; [reflexivity|].
  destruct (list_eq_dec Nat.eq_dec p [46]); [apply add_slash_done|]. destruct (list_eq_dec Nat.eq_dec p [46; 46]); [apply add_slash_done|].
  destruct (is_slash (last p 0)) eqn:E; [|apply add_slash_done]. unfold add_slash. rewrite E. repeat destruct (list_eq_dec _ _ _); auto; congruence.
Qed.
Lemma add_slash_ends p : p <> [] -> is_slash (last (add_slash p) 0) = true /\ (add_slash p = p \/ add_slash p = p ++ [47]).
Proof.
  intros N. unfold add_slash. destruct (list_eq_dec Nat.eq_dec p []); [contradiction|].
  destruct (list_eq_dec Nat.eq_dec p [46]); [subst; split; auto|]. destruct (list_eq_dec Nat.eq_dec p [46; 46]); [subst; split; auto|].
  destruct (is_slash (last p 0)) eqn:E; [auto|]. split; auto. rewrite last_last. reflexivity.
Qed.
