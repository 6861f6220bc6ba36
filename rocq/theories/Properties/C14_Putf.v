(** C14: putf. *)
From Coq Require Import List Arith Lia.
From Verif Require Import Model.Strings Spec.Strings Proofs.Strings.
Import ListNotations.

(** the text is returned complete for every length except the buffer size itself *)
Theorem C14_putf_complete : forall nbuf text, 0 < nbuf -> length text <> nbuf -> putf nbuf text = Some text.
Proof. intros nbuf text Hn H. rewrite (putf_spec nbuf text Hn). apply Nat.eqb_neq in H. rewrite H. reflexivity. Qed.
Print Assumptions C14_putf_complete.

(** at that length the last character is replaced by NUL *)
Theorem C14_putf_at_buffer_size : forall nbuf text, 0 < nbuf -> length text = nbuf ->
  putf nbuf text = Some (firstn (nbuf - 1) text ++ [0]).
Proof. intros nbuf text Hn H. rewrite (putf_spec nbuf text Hn). apply Nat.eqb_eq in H. rewrite H. reflexivity. Qed.
Print Assumptions C14_putf_at_buffer_size.

(** with the buffer of the code *)
Theorem C14_putf_1024_refuted : exists text, putf 1024 text <> Some text.
Proof.
  exists (repeat 97 1024). rewrite (C14_putf_at_buffer_size 1024 (repeat 97 1024) ltac:(lia) (repeat_length 97 1024)).
  intros H. vm_compute in H. discriminate.
Qed.
Print Assumptions C14_putf_1024_refuted.

Example C14_ex : putf 4 [1; 2; 3] = Some [1; 2; 3] /\ putf 4 [1; 2; 3; 4] = Some [1; 2; 3; 0] /\ putf 4 [1; 2; 3; 4; 5; 6] = Some [1; 2; 3; 4; 5; 6].
Proof. repeat split. Qed.
