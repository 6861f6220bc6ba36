From Coq Require Import ZArith List Bool Lia Permutation.
From Verif Require Import Model.MoveLoop Spec.MoveLoop Proofs.MoveLoop.
Import ListNotations.
Open Scope Z_scope.

(* Whatever permutation of the labels std::sort leaves with nothing behind an entry that belongs before it, the don't care label is first and the counts of the others fall. *)
Theorem C119_order : forall n dc cnt l, 0 <= dc < n -> Permutation l (map Z.of_nat (seq 0 (Z.to_nat n))) -> sorted_by (before dc cnt) l ->
  exists r, l = dc :: r /\ ~ In dc r /\ forall i j a b, (i < j)%nat -> nth_error r i = Some a -> nth_error r j = Some b -> cnt b <= cnt a.
Proof.
  intros n dc cnt l H P S. assert (D : In dc l). { apply (Permutation_in _ (Permutation_sym P)). apply in_map_iff. exists (Z.to_nat dc). split; [lia|]. apply in_seq. lia. }
  destruct (order_first dc cnt l S D) as [r ->]. assert (N : NoDup (dc :: r)). { apply (Permutation_NoDup (Permutation_sym P)). apply FinFun.Injective_map_NoDup; [intros x y; lia|apply seq_NoDup]. }
  inversion N as [|? ? N1 N2]; subst. exists r. split; [reflexivity|]. split; [exact N1|]. intros i j a b L A B. apply (order_rest dc cnt _ S (Datatypes.S i) (Datatypes.S j) a b ltac:(lia) A B). intros ->. apply N1. exact (nth_error_In _ _ A).
Qed.
Print Assumptions C119_order.
(* On different labels the functor is a strict order with ties, as std::sort wants; *)
Theorem C119_functor : forall dc cnt a b c, a <> b -> b <> c -> a <> c ->
  (before dc cnt a b = true -> before dc cnt b a = false) /\ (before dc cnt a b = true -> before dc cnt b c = true -> before dc cnt a c = true) /\
  (before dc cnt a b = false -> before dc cnt b a = false -> before dc cnt b c = false -> before dc cnt c b = false -> before dc cnt a c = false).
Proof.
  intros dc cnt a b c H1 H2 H3. unfold before. destruct (Z.eqb_spec a dc), (Z.eqb_spec b dc), (Z.eqb_spec c dc); try congruence; rewrite ?Z.ltb_lt, ?Z.ltb_ge; repeat split; intros; try discriminate; try reflexivity; lia.
Qed.
Print Assumptions C119_functor.
(* but the don't care label is before itself, which std::sort does not allow *)
Theorem C119_functor_refuted : exists dc cnt a, before dc cnt a a = true.
Proof. exists 0, (fun _ => 0), 0. reflexivity. Qed.
Print Assumptions C119_functor_refuted.

Section Loop.
Context {E L : Type} (n : Z) (ord : Z -> Z) (maxr : nat) (cont : bool) (stereo : Z -> E -> E * bool) (energy : E -> Z) (seg : E -> L) (project : E -> E) (refresh : bool -> E -> E) (resegm : Z -> E -> E * Z) (update : E -> E) (near4 near3 : L -> L -> bool).
Let run := run n ord maxr cont stereo energy seg project refresh resegm update near4 near3.

(* The moves are as many as allowed at most. Move j is to label j modulo n of the order; a resegmentation follows only move 0, n, 2n and so on, with the two labels in turn and as many moves as allowed at most. *)
Theorem C119_moves : forall max e, 0 < n -> (length (snd (run max e)) <= max)%nat /\ forall j b, nth_error (snd (run max e)) j = Some b ->
  label b = ord (Z.of_nat j mod n) /\ (Z.of_nat j mod n <> 0 -> moves b = []) /\ (length (moves b) <= maxr)%nat /\ exists a, (a = 0 \/ a = 1) /\ in_turn a (moves b).
Proof.
  intros max e H. split; [apply infer_length|]. intros j b B. apply (infer_block n ord maxr cont stereo energy seg project refresh resegm update near4 near3 max H 0 0) in B; [|lia]. destruct B as (A & B & C & D & _). auto.
Qed.
(* Unless the assertion fails, a resegmentation does follow each of those moves. *)
Theorem C119_passes : forall max e j b, (0 < maxr)%nat -> fst (fst (run max e)) <> Energy -> nth_error (snd (run max e)) j = Some b -> Z.of_nat j mod n = 0 -> moves b <> [].
Proof. intros max e j b H S B K. exact (infer_some n ord maxr cont stereo energy seg project refresh resegm update near4 near3 max H 0 0 0 (energy e) false 0 e (seg e) j b S B K). Qed.
(* The first resegmentation starts with the background. *)
Theorem C119_background_first : forall max e b, nth_error (snd (run max e)) 0 = Some b -> in_turn 0 (moves b).
Proof.
  intros [|max] e b; unfold run, MoveLoop.run; cbn [infer]; [discriminate|]. destruct (negb (0 <? n)); [discriminate|]. destruct (stereo _ _) as [e1 ch]. destruct (negb false && _); [intros H; injection H as <-; exact I|]. destruct (0 mod n =? 0).
  - match goal with |- context [pass _ _ _ _ _ ?h ?a ?b ?x ?y ?z ?w ?v] => assert (P := pass_turn n ord maxr cont stereo energy seg project refresh resegm update near4 near3 h a b x y z w v); destruct (pass _ _ _ _ _ h a b x y z w v) as [[[i e2] tot] l] end. cbv zeta. destruct (near3 _ _); [intros H; injection H as <-; exact P|]. destruct (infer _ _ _ _ _ _ _ _ _ _ _ _ _ _ _ _ _ _ _ _ _ _) as [[s e'] w]. intros H. injection H as <-. exact P.
  - destruct (infer _ _ _ _ _ _ _ _ _ _ _ _ _ _ _ _ _ _ _ _ _ _) as [[s e'] w]. intros H. injection H as <-. exact I.
Qed.
(* If the loop ends for lack of changes, the last n moves changed no label and no stereo model, and tried all of the labels. *)
Theorem C119_unchanged : forall max e, 0 < n -> fst (fst (run max e)) = Unchanged -> exists a b, snd (run max e) = a ++ b /\ Z.of_nat (length b) = n /\ (forall x, In x b -> changed x = false /\ updated x = false) /\
  forall i, 0 <= i < n -> exists x, In x b /\ label x = ord i.
Proof.
  intros max e H U. assert (X : exists a b, snd (run max e) = a ++ b /\ Z.of_nat (length b) = n /\ Forall quiet b).
  { destruct (infer_quiet n ord maxr cont stereo energy seg project refresh resegm update near4 near3 max 0 0 0 (energy e) false 0 e (seg e) ltac:(lia) U) as [[A B]|X]; [exists [], (snd (run max e)); repeat split; [exact B|exact A]|exact X]. }
  destruct X as (a & b & W & N & Q). exists a, b. split; [exact W|]. split; [exact N|]. split; [intros x Hx; exact (proj1 (Forall_forall _ _) Q x Hx)|]. intros i Hi.
  set (j := Z.to_nat ((i - Z.of_nat (length a)) mod n)). assert (J : 0 <= (i - Z.of_nat (length a)) mod n < n) by (apply Z.mod_pos_bound; lia). assert (Hj : (j < length b)%nat) by (unfold j; lia).
  destruct (nth_error b j) as [x|] eqn:B; [|apply nth_error_None in B; lia]. exists x. split; [exact (nth_error_In _ _ B)|]. destruct (proj2 (C119_moves max e H) (length a + j)%nat x) as [K _]. { rewrite W, nth_error_app2 by lia. replace (length a + j - length a)%nat with j by lia. exact B. }
  rewrite K. f_equal. unfold j. rewrite Nat2Z.inj_add, Z2Nat.id by lia. rewrite Zplus_mod_idemp_r. replace (Z.of_nat (length a) + (i - Z.of_nat (length a))) with i by lia. apply Z.mod_small. exact Hi.
Qed.
(* As configured, the stereo model is updated just if a second move of a pair changed labels; with the other setting and an even limit, just if any did. *)
Theorem C119_updates : forall max e b, 0 < n -> In b (snd (run max e)) -> (cont = true -> updated b = (0 <? seconds (moves b))) /\ (cont = false -> Nat.even maxr = true -> updated b = (0 <? sum (moves b))).
Proof.
  intros max e b H B. apply In_nth_error in B. destruct B as [j B]. apply (infer_block n ord maxr cont stereo energy seg project refresh resegm update near4 near3 max H 0 0) in B; [|lia]. destruct B as (_ & _ & _ & _ & C & D). auto.
Qed.
(* If no stereo move raises the energy, and the resegmentation by itself does not, the assertion on the energy never fails. *)
Theorem C119_energy : forall max e, (forall a x, energy (fst (stereo a x)) <= energy x) -> (forall x, energy (project x) <= energy x) -> (forall b x, energy (refresh b x) <= energy x) -> (forall a x, energy (fst (resegm a x)) <= energy x) -> fst (fst (run max e)) <> Energy.
Proof. intros max e H1 H2 H3 H4. apply infer_energy; auto. right. lia. Qed.
(* A segmentation that the first pass leaves as it is ends the loop after the one move to the first label, whatever the others would do. *)
Theorem C119_stable : forall max e, 0 < n -> (0 < max)%nat -> (forall a x, energy (fst (stereo a x)) <= energy x) -> (forall a x, seg (fst (stereo a x)) = seg x) -> (forall x, seg (project x) = seg x) -> (forall b x, seg (refresh b x) = seg x) -> (forall a x, seg (fst (resegm a x)) = seg x) -> (forall x, seg (update x) = seg x) -> (forall s, near3 s s = true) ->
  exists e' b, run max e = (Near, e', [b]) /\ label b = ord 0.
Proof.
  intros [|max] e H M H1 S1 S2 S3 S4 S5 R; [lia|]. unfold run, MoveLoop.run. cbn [infer]. destruct (Z.ltb_spec 0 n); [|lia]. cbn [negb]. assert (X := H1 (ord 0) e). assert (Y := S1 (ord 0) e). destruct (stereo _ _) as [e1 ch]. cbn [fst] in X, Y. destruct (Z.ltb_spec (energy e) (energy e1)); [lia|]. cbn [negb andb]. rewrite Z.mod_0_l by lia. cbn [Z.eqb].
  match goal with |- context [pass _ _ _ _ _ ?h ?a ?b ?x ?y ?z ?w ?v] => assert (P := pass_keeps cont seg refresh resegm near4 (fun q => seg q = seg e) (fun b0 q K => eq_trans (S3 b0 q) K) (fun a0 q K => eq_trans (S4 a0 q) K) h a b x y z w v (eq_trans (S2 e1) Y)); destruct (pass _ _ _ _ _ h a b x y z w v) as [[[i e2] tot] l] end. cbn [fst snd] in P. cbv zeta.
  assert (Q : seg (if 0 <? tot then update e2 else e2) = seg e) by (destruct (0 <? tot); rewrite ?S5; exact P). rewrite Q, R. eexists. eexists. split; reflexivity.
Qed.
End Loop.
Print Assumptions C119_moves.
Print Assumptions C119_passes.
Print Assumptions C119_background_first.
Print Assumptions C119_unchanged.
Print Assumptions C119_updates.
Print Assumptions C119_energy.
Print Assumptions C119_stable.

(* one pixel, that a move to the background (0) changes and a move to the foreground (1) does not *)
Definition pixel_move (a e : Z) : Z * Z := if a =? 0 then (0, if e =? 0 then 0 else 1) else (e, 0).
Definition pixel_run (cont : bool) : stop * Z * list block := run 3 (fun i => i) 30 cont (fun _ e => (e, false)) (fun _ => 0) (fun e => e) (fun e => e) (fun _ e => e) pixel_move (fun e => e) Z.eqb Z.eqb 500 1.
(* As configured, the segmentation may change without the stereo model ever being updated. *)
Theorem C119_updates_refuted : exists w, pixel_run true = (Unchanged, 0, w) /\ (forall b, In b w -> updated b = false) /\ exists b, In b w /\ sum (moves b) = 1.
Proof.
  eexists. split; [vm_compute; reflexivity|]. split.
  - intros b [<-|[<-|[<-|[]]]]; reflexivity.
  - eexists. split; [left; reflexivity|reflexivity].
Qed.
Print Assumptions C119_updates_refuted.
(* with the other setting it is *)
Example C119_ex_updates : exists b w, pixel_run false = (Near, 0, b :: w) /\ updated b = true /\ length w = 3%nat.
Proof. eexists. eexists. split; [vm_compute; reflexivity|]. split; reflexivity. Qed.
(* and a segmentation that is right from the start leaves all disparities but the first label untried *)
Theorem C119_labels_refuted : exists e' b, run 3 (fun i => i) 30 true (fun a e => (if a =? 2 then (2, snd e) else e, a =? 2)) (fun e : Z * Z => 5 - fst e) snd (fun e => e) (fun _ e => e) (fun a e => (e, 0)) (fun e => e) Z.eqb Z.eqb 500 (0, 0) = (Near, e', [b]) /\ e' = (0, 0) /\ label b = 0.
Proof. eexists. eexists. split; [vm_compute; reflexivity|]. split; reflexivity. Qed.
Print Assumptions C119_labels_refuted.
Example C119_ex_order : sorted_by (before 2 (fun i => if i =? 1 then 7 else 3)) [2; 1; 0; 3].
Proof. intros [|[|[|[|i]]]] [|[|[|[|j]]]] a b H A B; cbn in A, B; try lia; try (injection A as <-); try (injection B as <-); try reflexivity; try (destruct i; discriminate); try (destruct j; discriminate). Qed.
