(** Integer ranges, rectangular grids and counting. *)
From Coq Require Import ZArith List Lia Bool Permutation.
Import ListNotations.
Open Scope Z_scope.

Definition zseq (a : Z) (n : nat) : list Z := map (fun i => a + Z.of_nat i) (seq 0 n).
(** [a, a+n) with n possibly negative *)
Definition zrange (a n : Z) : list Z := zseq a (Z.to_nat n).
Definition grid (y h x w : Z) : list (Z * Z) := list_prod (zrange y h) (zrange x w).
Definition count {A} (p : A -> bool) (l : list A) : Z := Z.of_nat (length (filter p l)).

Lemma zseq_length a n : length (zseq a n) = n.
Proof. unfold zseq. now rewrite map_length, seq_length. Qed.
Lemma zseq_S a n : zseq a (S n) = a :: zseq (a + 1) n.
Proof.
  unfold zseq. cbn [seq map]. f_equal; [ lia |]. rewrite <- seq_shift, map_map. apply map_ext. intro i. lia.
Qed.
Lemma zseq_app a n m : zseq a (n + m) = zseq a n ++ zseq (a + Z.of_nat n) m.
Proof.
  revert a. induction n as [|n IH]; intro a; cbn [plus].
  - change (zseq a 0) with (@nil Z). rewrite Z.add_0_r. reflexivity.
  - rewrite !zseq_S, IH. cbn [app]. do 2 f_equal. f_equal. lia.
Qed.
Lemma in_zseq x a n : In x (zseq a n) <-> a <= x < a + Z.of_nat n.
Proof.
  unfold zseq. rewrite in_map_iff. split.
  - intros (i & <- & I). apply in_seq in I. lia.
  - intro H. exists (Z.to_nat (x - a)). split; [ lia |]. apply in_seq. lia.
Qed.
Lemma in_zrange x a n : In x (zrange a n) <-> a <= x < a + n.
Proof. unfold zrange. rewrite in_zseq. lia. Qed.
Lemma nodup_zseq a n : NoDup (zseq a n).
Proof.
  revert a. induction n as [|n IH]; intro a; [ constructor |]. rewrite zseq_S. constructor; auto. rewrite in_zseq. lia.
Qed.
Lemma nth_zseq a n i d : (i < n)%nat -> nth i (zseq a n) d = a + Z.of_nat i.
Proof.
  revert a i. induction n as [|n IH]; intros a i L; [ lia |]. rewrite zseq_S. destruct i; cbn [nth]; [ lia |]. rewrite IH by lia. lia.
Qed.
Lemma zseq_shift a d n : zseq (a + d) n = map (fun x => x + d) (zseq a n).
Proof. unfold zseq. rewrite map_map. apply map_ext. intro. lia. Qed.
Lemma in_grid p y h x w : In p (grid y h x w) <-> y <= fst p < y + h /\ x <= snd p < x + w.
Proof. destruct p as [a b]. unfold grid. rewrite in_prod_iff, !in_zrange. reflexivity. Qed.
Lemma nodup_prod {A B} (l : list A) (m : list B) : NoDup l -> NoDup m -> NoDup (list_prod l m).
Proof.
  intros Hl Hm. induction Hl as [|a l N Hl IH]; cbn [list_prod]; [ constructor |].
  assert (In_q : forall x y, In (x, y) (list_prod l m) -> In x l) by (intros x y I; apply in_prod_iff in I; tauto).
  revert IH In_q. generalize (list_prod l m) as q. intros q IH In_q.
  induction Hm as [|b m Nb Hm IHm]; cbn [map app]; auto. constructor; auto.
  rewrite in_app_iff, in_map_iff. intros [(y & E & I)|I]; [ congruence | apply In_q in I; contradiction ].
Qed.
Lemma nodup_grid y h x w : NoDup (grid y h x w).
Proof. apply nodup_prod; apply nodup_zseq. Qed.

Lemma filter_filter {A} (p q : A -> bool) l : filter p (filter q l) = filter (fun x => q x && p x) l.
Proof. induction l as [|a l IH]; auto. cbn [filter]. destruct (q a) eqn:E; cbn [filter andb]; [ destruct (p a) |]; now rewrite IH. Qed.
Lemma filter_none {A} (p : A -> bool) l : (forall x, In x l -> p x = false) -> filter p l = [].
Proof. induction l as [|a l IH]; intro H; auto. cbn [filter]. rewrite H by now left. apply IH. intros; apply H; now right. Qed.
Lemma filter_all {A} (p : A -> bool) l : (forall x, In x l -> p x = true) -> filter p l = l.
Proof. induction l as [|a l IH]; intro H; auto. cbn [filter]. rewrite H by now left. f_equal. apply IH. intros; apply H; now right. Qed.
Lemma filter_map {A B} (f : A -> B) p l : filter p (map f l) = map f (filter (fun x => p (f x)) l).
Proof. induction l as [|a l IH]; auto. cbn [map filter]. destruct (p (f a)); cbn [map]; now rewrite IH. Qed.
Lemma filter_prod {A B} (p : A -> bool) (q : B -> bool) l m :
  filter (fun z => p (fst z) && q (snd z)) (list_prod l m) = list_prod (filter p l) (filter q m).
Proof.
  induction l as [|a l IH]; auto. cbn [list_prod]. rewrite filter_app, IH, filter_map. cbn [fst snd filter].
  destruct (p a); cbn [andb list_prod]; [ reflexivity |]. rewrite filter_none by auto. reflexivity.
Qed.
(** a sub-range is what filtering by membership leaves *)
Lemma filter_zrange a n N : 0 <= a -> 0 <= n -> a + n <= N -> filter (fun x => (a <=? x) && (x <? a + n)) (zrange 0 N) = zrange a n.
Proof.
  intros A Hn HN. unfold zrange.
  replace (Z.to_nat N) with (Z.to_nat a + (Z.to_nat n + Z.to_nat (N - a - n)))%nat by lia.
  rewrite !zseq_app, !filter_app. rewrite (filter_none _ (zseq 0 _)), (filter_all _ (zseq _ (Z.to_nat n))), (filter_none _ (zseq _ (Z.to_nat (N - a - n)))).
  - rewrite app_nil_r. cbn [app]. f_equal. lia.
  - intros x I. apply in_zseq in I. apply andb_false_iff. right. apply Z.ltb_ge. lia.
  - intros x I. apply in_zseq in I. apply andb_true_iff. split; [ apply Z.leb_le | apply Z.ltb_lt ]; lia.
  - intros x I. apply in_zseq in I. apply andb_false_iff. left. apply Z.leb_gt. lia.
Qed.
Lemma prod_map {A B C D} (f : A -> C) (g : B -> D) l m : list_prod (map f l) (map g m) = map (fun z => (f (fst z), g (snd z))) (list_prod l m).
Proof. induction l as [|a l IH]; auto. cbn [map list_prod]. rewrite map_app, IH, !map_map. reflexivity. Qed.
Lemma grid_shift y h x w dy dx : grid (y + dy) h (x + dx) w = map (fun z => (fst z + dy, snd z + dx)) (grid y h x w).
Proof. unfold grid, zrange. rewrite !zseq_shift. apply (prod_map (fun a => a + dy) (fun a => a + dx)). Qed.
Lemma prod_len {A B} (l : list A) (m : list B) : length (list_prod l m) = (length l * length m)%nat.
Proof. induction l; auto. cbn [list_prod length]. rewrite app_length, map_length, IHl. lia. Qed.
Lemma grid_length y h x w : 0 <= h -> 0 <= w -> Z.of_nat (length (grid y h x w)) = h * w.
Proof. intros. unfold grid, zrange. rewrite prod_len, !zseq_length. nia. Qed.
(** counting over a sub-rectangle *)
Lemma count_subgrid q y h x w H W : 0 <= y -> 0 <= h -> y + h <= H -> 0 <= x -> 0 <= w -> x + w <= W ->
  count (fun z => ((y <=? fst z) && (fst z <? y + h)) && ((x <=? snd z) && (snd z <? x + w)) && q z) (grid 0 H 0 W) = count q (grid y h x w).
Proof.
  intros. unfold count. f_equal. f_equal. rewrite <- filter_filter. f_equal. unfold grid.
  rewrite (filter_prod (fun a => (y <=? a) && (a <? y + h)) (fun b => (x <=? b) && (b <? x + w))). now rewrite !filter_zrange.
Qed.
Lemma count_map {A B} (f : A -> B) p l : count p (map f l) = count (fun x => p (f x)) l.
Proof. unfold count. now rewrite filter_map, map_length. Qed.
Lemma count_ext_in {A} (p q : A -> bool) l : (forall x, In x l -> p x = q x) -> count p l = count q l.
Proof. intro H. unfold count. f_equal. f_equal. induction l as [|a l IH]; auto. cbn [filter]. rewrite (H a) by now left. rewrite IH; auto. intros; apply H; now right. Qed.
Lemma count_true {A} (l : list A) : count (fun _ => true) l = Z.of_nat (length l).
Proof. unfold count. now rewrite filter_all. Qed.
Lemma count_cons {A} (p : A -> bool) a l : count p (a :: l) = (if p a then 1 else 0) + count p l.
Proof. unfold count. cbn [filter]. destruct (p a); cbn [length]; lia. Qed.
Lemma count_app {A} (p : A -> bool) a b : count p (a ++ b) = count p a + count p b.
Proof. unfold count. rewrite filter_app, app_length. lia. Qed.
Lemma count_nonneg {A} (p : A -> bool) l : 0 <= count p l.
Proof. unfold count. lia. Qed.
Lemma count_le {A} (p : A -> bool) l : count p l <= Z.of_nat (length l).
Proof. induction l as [|a l IH]; [ cbn; lia |]. rewrite count_cons. cbn [length]. destruct (p a); lia. Qed.
Lemma count_mono {A} (p q : A -> bool) l : (forall x, In x l -> p x = true -> q x = true) -> count p l <= count q l.
Proof.
  induction l as [|a l IH]; intro H; [ cbn; lia |]. rewrite !count_cons.
  assert (count p l <= count q l) by (apply IH; intros; apply H; auto; now right).
  destruct (p a) eqn:E; [ rewrite (H a) by (auto; now left); lia |]. destruct (q a); lia.
Qed.
Lemma count_perm {A} (p : A -> bool) a b : Permutation a b -> count p a = count p b.
Proof. induction 1; rewrite ?count_cons; lia. Qed.
Lemma count_split {A} (p q : A -> bool) l : count p l = count (fun x => p x && q x) l + count (fun x => p x && negb (q x)) l.
Proof. induction l as [|a l IH]; auto. rewrite !count_cons, IH. destruct (p a), (q a); cbn [andb negb]; lia. Qed.
