(** Lists of threads: replacing and removing the k-th, counting. *)
From Coq Require Import List Bool Arith Lia.
Import ListNotations.

Definition set {A} (l : list A) (k : nat) (x : A) : list A := firstn k l ++ match skipn k l with [] => [] | _ :: r => x :: r end.
Definition remove {A} (l : list A) (k : nat) : list A := firstn k l ++ match skipn k l with [] => [] | _ :: r => r end.
Fixpoint howmany {A} (f : A -> bool) (l : list A) : nat := match l with [] => 0 | x :: r => (if f x then 1 else 0) + howmany f r end.

Lemma nth_cut {A} (l : list A) k x : nth_error l k = Some x -> exists l1 l2, l = l1 ++ x :: l2 /\ length l1 = k /\ (forall y, set l k y = l1 ++ y :: l2) /\ remove l k = l1 ++ l2.
Proof.
  intro H. apply nth_error_split in H. destruct H as (l1 & l2 & -> & L). exists l1, l2. split; [ reflexivity |]. split; [ exact L |]. unfold set, remove. rewrite <- L, firstn_app, skipn_app, Nat.sub_diag, firstn_all, skipn_all. cbn [firstn skipn app]. rewrite app_nil_r. auto.
Qed.
Lemma howmany_app {A} (f : A -> bool) l m : howmany f (l ++ m) = howmany f l + howmany f m.
Proof. induction l as [|x l IH]; cbn [app howmany]; [ reflexivity |]. rewrite IH. lia. Qed.
Lemma howmany_cons {A} (f : A -> bool) x l : howmany f (x :: l) = (if f x then 1 else 0) + howmany f l.
Proof. reflexivity. Qed.
Lemma howmany_le {A} (f : A -> bool) l : howmany f l <= length l.
Proof. induction l as [|x l IH]; cbn [howmany length]; [ lia |]. destruct (f x); lia. Qed.
Lemma howmany_0 {A} (f : A -> bool) l : howmany f l = 0 <-> Forall (fun x => f x = false) l.
Proof.
  induction l as [|x l IH]; cbn [howmany]; [ split; auto |]. split.
  - intro H. destruct (f x) eqn:E; [ lia |]. constructor; [ exact E | apply IH; lia ].
  - intro H. inversion H; subst. rewrite H2. apply IH in H3. lia.
Qed.
Lemma howmany_neg {A} (f : A -> bool) l : howmany f l + howmany (fun x => negb (f x)) l = length l.
Proof. induction l as [|x l IH]; cbn [howmany length]; [ reflexivity |]. destruct (f x); cbn [negb]; lia. Qed.
Lemma howmany_pos {A} (f : A -> bool) l : 0 < howmany f l -> exists k x, nth_error l k = Some x /\ f x = true.
Proof.
  induction l as [|x l IH]; cbn [howmany]; [ lia |]. destruct (f x) eqn:E. { intros _. exists 0, x. auto. }
  intro H. destruct IH as (k & y & K); [ lia |]. exists (S k), y. exact K.
Qed.
Lemma Forall_cut {A} (P : A -> Prop) l1 x l2 : Forall P (l1 ++ x :: l2) <-> P x /\ Forall P (l1 ++ l2).
Proof. rewrite !Forall_app. split. - intros (H1 & H2). inversion H2; auto. - intros (H1 & H2 & H3). auto. Qed.
Lemma nth_set_same {A} (l : list A) k x y : nth_error l k = Some x -> nth_error (set l k y) k = Some y.
Proof. intro H. destruct (nth_cut _ _ _ H) as (l1 & l2 & _ & L & S & _). rewrite S, <- L, nth_error_app2, Nat.sub_diag by lia. reflexivity. Qed.
Lemma nth_set_other {A} (l : list A) k j y : k <> j -> nth_error (set l k y) j = nth_error l j.
Proof.
  intro H. unfold set. destruct (skipn k l) as [|x r] eqn:E.
  - rewrite app_nil_r. apply (f_equal (@length A)) in E. rewrite skipn_length in E. cbn in E. rewrite firstn_all2 by lia. reflexivity.
  - assert (L : length (firstn k l) = k). { rewrite firstn_length. apply (f_equal (@length A)) in E. rewrite skipn_length in E. cbn in E. lia. }
    rewrite <- (firstn_skipn k l) at 2. rewrite E. destruct (le_lt_dec k j) as [G|G].
    + rewrite !nth_error_app2 by lia. rewrite L. destruct (j - k) eqn:D; [ lia |]. reflexivity.
    + rewrite !nth_error_app1 by lia. reflexivity.
Qed.
Lemma set_length {A} (l : list A) k y : length (set l k y) = length l.
Proof. unfold set. rewrite app_length. rewrite <- (firstn_skipn k l) at 3. rewrite app_length. destruct (skipn k l); reflexivity. Qed.
