(** Counted loops. *)
From Coq Require Import List Arith Lia.
Import ListNotations.

(** for(i=lo; i<hi; ++i) body *)
Definition loop {S : Type} (lo hi : nat) (body : nat -> S -> S) (s : S) : S :=
  fold_left (fun s i => body i s) (seq lo (hi - lo)) s.

Lemma loop_nil : forall {S} lo hi (body : nat -> S -> S) s, hi <= lo -> loop lo hi body s = s.
Proof. intros S lo hi body s H. unfold loop. replace (hi - lo) with 0 by lia. reflexivity. Qed.

Lemma loop_S : forall {S} lo hi (body : nat -> S -> S) s, lo <= hi -> loop lo (Datatypes.S hi) body s = body hi (loop lo hi body s).
Proof.
  intros S lo hi body s H. unfold loop. replace (Datatypes.S hi - lo) with (Datatypes.S (hi - lo)) by lia.
  rewrite seq_S, fold_left_app. simpl. replace (lo + (hi - lo)) with hi by lia. reflexivity.
Qed.

Lemma loop_inv : forall {S} (P : nat -> S -> Prop) lo hi body s, lo <= hi -> P lo s ->
  (forall i t, lo <= i < hi -> P i t -> P (Datatypes.S i) (body i t)) -> P hi (loop lo hi body s).
Proof.
  intros S P lo hi body s Hle H0 Hs. induction hi as [|hi IH].
  - assert (lo = 0) by lia. subst. exact H0.
  - destruct (Nat.eq_dec lo (Datatypes.S hi)) as [->|Hn].
    + rewrite loop_nil by lia. exact H0.
    + rewrite loop_S by lia. apply Hs; [lia|]. apply IH; [lia|]. intros i t Hi. apply Hs. lia.
Qed.

Lemma loop_ext : forall {S} lo hi (f g : nat -> S -> S) s, (forall i t, lo <= i < hi -> f i t = g i t) -> loop lo hi f s = loop lo hi g s.
Proof.
  intros S lo hi f g s H. destruct (Nat.le_gt_cases hi lo); [rewrite !loop_nil by lia; reflexivity|].
  induction hi as [|hi IH]; [lia|]. destruct (Nat.eq_dec hi lo) as [->|].
  - rewrite !loop_S, !loop_nil by lia. apply H. lia.
  - rewrite !loop_S by lia. rewrite IH by (try lia; intros; apply H; lia). apply H. lia.
Qed.
