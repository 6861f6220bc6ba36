(** Proofs about the writer with any number of workers. *)
From Coq Require Import ZArith List Bool Lia.
From Verif Require Import Model.Writer Spec.Writer Proofs.Writer.
Import ListNotations.
Open Scope Z_scope.

Section S.
Variables cmin cmax : Z.
Notation stp := (step cmin cmax).
Notation rn := (run cmin cmax).
Definition picks (a : act) : Prop := exists k, a = Work k \/ a = Spurious_worker k.
Definition on_head (s : st) : Prop := forall k a i sz, nth_error (workers s) k = Some (Writing a i sz) -> exists n r, q s = n :: r /\ a = id n /\ i = key n.
Lemma nth_set {A} (l : list A) k x j y : nth_error (set l k x) j = Some y -> y = x \/ nth_error l j = Some y.
Proof.
  revert k j. induction l as [|a l IH]; intros [|k] [|j] H; unfold set in *; cbn in H |- *; try discriminate.
  - injection H as ->. auto. - auto. - auto. - apply IH in H. exact H.
Qed.
Lemma pick_step s a : picks a -> on_head s -> on_head (fst (stp s a)) /\ q (fst (stp s a)) = q s.
Proof.
  intros (k & [-> | ->]) H; unfold step; destruct (bad s); cbn [fst]; auto.
  - destruct (nth_error (workers s) k) as [[| | |]|]; auto. destruct (hung s); cbn [fst]; auto. unfold work.
    assert (SW : forall w, w <> Gone -> (forall a i sz, w = Writing a i sz -> exists n r, q s = n :: r /\ a = id n /\ i = key n) -> on_head (set_workers s (set (workers s) k w)) /\ q s = q s).
    { intros w _ P. split; [| reflexivity ]. intros j a i sz E. cbn [set_workers workers q] in *. apply nth_set in E. destruct E as [E|E]; [ now apply P with sz | now apply H with j sz ]. }
    destruct (negb (active s || (0 <? cnt s))). { split; [| reflexivity ]. intros j a i sz E. cbn [fst set_workers workers q] in *. apply nth_set in E. destruct E as [E|E]; [ discriminate | now apply H with j sz ]. }
    destruct (active s && negb (0 <? cnt s)). { apply SW; [ discriminate |]. discriminate. }
    destruct (q s) as [|n r] eqn:Q. { split; [| reflexivity ]. intros j a i sz E. destruct (H j a i sz E) as (n & r & Q' & _). congruence. }
    destruct (len (data n) <=? qsize s).
    + cbn [fst]. split; [| exact Q ]. apply SW; [ discriminate |]. intros a i sz E. injection E as <- <- <-. exists n, r. auto.
    + split; [| reflexivity ]. intros j a i sz E. cbn [fst q]. destruct (H j a i sz E) as (n' & r' & Q' & X). exists n', r'. split; [ congruence | exact X ].
  - destruct (nth_error (workers s) k) as [[| | |]|]; auto. split; [| reflexivity ]. intros j a i sz E. cbn [fst set_workers workers q] in *. apply nth_set in E. destruct E as [E|E]; [ discriminate | now apply H with j sz ].
Qed.
Lemma picks_run l : forall s, Forall picks l -> on_head s -> on_head (fst (rn s l)) /\ q (fst (rn s l)) = q s.
Proof.
  induction l as [|a l IH]; intros s F H; cbn [run]; [ auto |]. inversion F; subst. destruct (pick_step s a) as (A & B); auto. destruct (stp s a) as (s1 & o1). cbn [fst] in *. destruct (IH s1) as (C & D); auto. destruct (rn s1 l) as (s2 & o2). cbn [fst] in *. split; [ exact C | congruence ].
Qed.
Lemma same_packet s l : Forall picks l -> (forall k a i sz, nth_error (workers s) k <> Some (Writing a i sz)) -> forall j k a b i i' sz sz', nth_error (workers (fst (rn s l))) j = Some (Writing a i sz) -> nth_error (workers (fst (rn s l))) k = Some (Writing b i' sz') -> a = b /\ i = i'.
Proof.
  intros F N j k a b i i' sz sz' J K. destruct (picks_run l s F) as (H & _). { intros x a0 i0 z0 E. exfalso. now apply N in E. }
  destruct (H _ _ _ _ J) as (n & r & Q & A & I). destruct (H _ _ _ _ K) as (n' & r' & Q' & A' & I'). rewrite Q in Q'. injection Q' as <- <-. split; congruence.
Qed.
Lemma erased_not_in q a q' : NoDup (ids q) -> erase q a = Some q' -> at_id q' a = None.
Proof.
  intros ND E. pose proof (at_id_spec q a) as SP. destruct (at_id q a) as [n|]; [| destruct SP as (_ & X); congruence ]. destruct SP as (q1 & q2 & Q & ID & E' & _). rewrite E in E'. injection E' as ->.
  pose proof (at_id_spec (q1 ++ q2) a) as SP2. destruct (at_id (q1 ++ q2) a) as [m|]; [| reflexivity ]. exfalso. destruct SP2 as (q3 & q4 & Q2 & ID2 & _). rewrite Q in ND. unfold ids in ND. rewrite map_app in ND. cbn [map] in ND. apply NoDup_remove_2 in ND. apply ND. rewrite <- map_app, Q2, ID. apply in_map_iff. exists m. split; [ exact ID2 |]. apply in_or_app. right. now left.
Qed.
Lemma nth_set_other {A} (l : list A) k x j : j <> k -> nth_error (set l k x) j = nth_error l j.
Proof. revert k j. induction l as [|a l IH]; intros [|k] [|j] H; unfold set in *; cbn; try reflexivity; try congruence. apply IH. congruence. Qed.
Lemma erased_twice s j k a i i' sz sz' o1 o2 : bad s = false -> hung s = false -> NoDup (ids (q s)) -> j <> k -> nth_error (workers s) j = Some (Writing a i sz) -> nth_error (workers s) k = Some (Writing a i' sz') -> bad (fst (rn s [Done j o1; Done k o2])) = true.
Proof.
  intros B H ND JK J K. cbn [run]. unfold step at 1. rewrite B, J, H. unfold done. pose proof (at_id_spec (q s) a) as SP. destruct (at_id (q s) a) as [n|] eqn:AT.
  - destruct SP as (q1 & q2 & Q & ID & E & _). rewrite E. unfold step. cbn [bad workers hung]. rewrite B, nth_set_other by congruence. rewrite K, H. unfold done. cbn [q]. rewrite (erased_not_in (q s) a _ ND E). reflexivity.
  - unfold step. cbn [bad]. reflexivity.
Qed.
(** without workers *)
Lemma no_worker_step s a : workers s = [] -> (forall n d w, a <> Start n d w) -> (forall c, ctrl s <> Joining (Some c)) -> workers (fst (stp s a)) = [] /\ begun (snd (stp s a)) = [] /\ written (snd (stp s a)) = [] /\ (forall c, ctrl (fst (stp s a)) <> Joining (Some c)).
Proof.
  intros W NS NC. assert (SAME : workers s = [] /\ begun [] = [] /\ written [] = [] /\ (forall c, ctrl s <> Joining (Some c))) by auto. unfold step. destruct (bad s); [ exact SAME |]. destruct a as [i l|k m|n d w| | |k|k ok|k|k].
  - destruct (active s); cbn [negb]; [ destruct (maxs s <? len l) |]; exact SAME.
  - destruct (nth_error (calls s) k) as [c|]; [| exact SAME ]. destruct (hung s || negb (c_awake c)); [ exact SAME |]. unfold enter. destruct (size_with s (c_idx c) (c_data c) <=? maxs s); [| destruct (drop s); exact SAME ]. cbn [fst snd workers ctrl]. rewrite W, begun_app, written_app. split; [ destruct m; reflexivity |].
    destruct (find (q s) (c_idx c)) as [n|]; [ destruct (existsb (reads (id n)) []) |]; cbn; auto.
  - exfalso. now apply (NS n d w).
  - destruct (ctrl s) eqn:C; [| rewrite <- C in *; exact SAME ]. unfold stop, after_stop. destruct (active s); [ destruct (hung s) |]; [ rewrite <- C in *; exact SAME | cbn; rewrite W; repeat split; congruence |]. destruct (exc s); cbn; rewrite W; repeat split; congruence.
  - destruct (ctrl s) as [|c] eqn:C; [ rewrite <- C in *; exact SAME |]. destruct (forallb gone (workers s)); [| rewrite <- C in *; exact SAME ]. unfold after_stop. destruct (exc s); [ destruct c as [c|] |]; cbn; rewrite ?W; [ exfalso; now apply (NC c) | repeat split; congruence | repeat split; congruence ].
  - rewrite W. destruct k; exact SAME.
  - rewrite W. destruct k; exact SAME.
  - destruct (nth_error (calls s) k); exact SAME.
  - rewrite W. destruct k; exact SAME.
Qed.
Lemma no_worker_run l : forall s, workers s = [] -> (forall a, In a l -> forall n d w, a <> Start n d w) -> (forall c, ctrl s <> Joining (Some c)) -> begun (snd (rn s l)) = [] /\ written (snd (rn s l)) = [].
Proof.
  induction l as [|a l IH]; intros s W NS NC; cbn [run]; [ auto |]. destruct (no_worker_step s a W (NS a (or_introl eq_refl)) NC) as (A & B & C & D). destruct (stp s a) as (s1 & o1). cbn [fst snd] in *. destruct (IH s1) as (E & F); auto. { intros x X. apply NS. now right. } destruct (rn s1 l) as (s2 & o2). cbn [fst snd] in *. rewrite begun_app, written_app, B, C, E, F. auto.
Qed.
(** a worker that goes round in circles keeps the mutex: nothing that needs it ever happens again *)
Lemma hung_step s a : hung s = true -> active s = true -> hung (fst (stp s a)) = true /\ active (fst (stp s a)) = true /\ accepted (snd (stp s a)) = [] /\ written (snd (stp s a)) = [] /\ begun (snd (stp s a)) = [] /\ ~ In Joined_all (snd (stp s a)) \/ ctrl s <> Free.
Proof.
  intros H A. destruct (ctrl s) eqn:C; [| right; discriminate ]. left. assert (SAME : hung s = true /\ active s = true /\ accepted [] = [] /\ written [] = [] /\ begun [] = [] /\ ~ In Joined_all []) by (repeat split; auto).
  unfold step. destruct (bad s); [ exact SAME |]. destruct a as [i l|k m|n d w| | |k|k ok|k|k]; rewrite ?C, ?A, ?H; cbn [negb orb].
  - destruct (maxs s <? len l); cbn; repeat split; auto. intros [X|[]]; discriminate.
  - destruct (nth_error (calls s) k) as [c|]; exact SAME.
  - unfold stop. rewrite A, H. exact SAME.
  - unfold stop. rewrite A, H. exact SAME.
  - exact SAME.
  - destruct (nth_error (workers s) k) as [[| | |]|]; exact SAME.
  - destruct (nth_error (workers s) k) as [[| | |]|]; exact SAME.
  - destruct (nth_error (calls s) k) as [c|]; exact SAME.
  - destruct (nth_error (workers s) k) as [[| | |]|]; exact SAME.
Qed.
Lemma hung_ctrl s a : hung s = true -> active s = true -> ctrl s = Free -> ctrl (fst (stp s a)) = Free.
Proof.
  intros H A C. unfold step. destruct (bad s); [ exact C |]. destruct a as [i l|k m|n d w| | |k|k ok|k|k]; rewrite ?C, ?A, ?H; cbn [negb orb].
  - destruct (maxs s <? len l); exact C. - destruct (nth_error (calls s) k); exact C. - unfold stop. rewrite A, H. exact C. - unfold stop. rewrite A, H. exact C. - exact C.
  - destruct (nth_error (workers s) k) as [[| | |]|]; exact C. - destruct (nth_error (workers s) k) as [[| | |]|]; exact C. - destruct (nth_error (calls s) k); exact C. - destruct (nth_error (workers s) k) as [[| | |]|]; exact C.
Qed.
Lemma hung_forever l : forall s, hung s = true -> active s = true -> ctrl s = Free -> accepted (snd (rn s l)) = [] /\ written (snd (rn s l)) = [] /\ begun (snd (rn s l)) = [] /\ ~ In Joined_all (snd (rn s l)).
Proof.
  induction l as [|a l IH]; intros s H A C; cbn [run]; [ repeat split; auto |]. destruct (hung_step s a H A) as [(B1 & B2 & B3 & B4 & B5 & B6)|B]; [| contradiction ]. pose proof (hung_ctrl s a H A C) as B7. destruct (stp s a) as (s1 & o1). cbn [fst snd] in *. destruct (IH s1 B1 B2 B7) as (D1 & D2 & D3 & D4). destruct (rn s1 l) as (s2 & o2). cbn [fst snd] in *.
  rewrite accepted_app, written_app, begun_app, B3, B4, B5, D1, D2, D3. repeat split; auto. rewrite in_app_iff. tauto.
Qed.
End S.
