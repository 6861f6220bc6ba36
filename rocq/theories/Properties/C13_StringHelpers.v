(** C13: split, clampString, string_contains_token. *)
From Coq Require Import List Arith Lia.
From Verif Require Import Model.Strings Spec.Strings Proofs.Strings.
Import ListNotations.

(** joining the pieces gives the string back, up to exactly one trailing delimiter; no piece contains the delimiter *)
Theorem C13_split_join : forall s d, s <> [] ->
  Forall (fun t => ~ In d t) (split s d) /\
  ((~ ends_with d s /\ join d (split s d) = s) \/ (ends_with d s /\ join d (split s d) ++ [d] = s)).
Proof. exact split_spec. Qed.
Print Assumptions C13_split_join.

(** consequently the full round trip does not hold: a trailing delimiter is lost *)
Theorem C13_split_join_identity_refuted : exists s d, s <> [] /\ join d (split s d) <> s.
Proof. exists [97; 44], 44. split; discriminate. Qed.
Print Assumptions C13_split_join_identity_refuted.

Theorem C13_contains_token : forall s tokens, string_contains_token s tokens = true <-> exists t, In t tokens /\ substring_of t s.
Proof. exact contains_token_iff. Qed.
Print Assumptions C13_contains_token.

Theorem C13_clamp_length : forall s n pad, length (clampString s n pad) = n.
Proof. exact clamp_length. Qed.
Print Assumptions C13_clamp_length.

Theorem C13_clamp_content : forall s n pad,
  (length s <= n -> clampString s n pad = repeat pad (n - length s) ++ s) /\
  (n <= length s -> exists rest, s = clampString s n pad ++ rest).
Proof. intros s n pad. exact (conj (clamp_short s n pad) (clamp_long s n pad)). Qed.
Print Assumptions C13_clamp_content.

Example C13_ex_split : split [97; 44; 44; 98; 44] 44 = [[97]; []; [98]] /\ split [] 44 = [].
Proof. split; reflexivity. Qed.
Example C13_ex_clamp : clampString [1; 2; 3] 5 0 = [0; 0; 1; 2; 3] /\ clampString [1; 2; 3] 2 0 = [1; 2].
Proof. split; reflexivity. Qed.
Example C13_ex_token : string_contains_token [1; 2; 3] [[9]; [2; 3]] = true /\ string_contains_token [1; 2; 3] [[3; 2]] = false.
Proof. split; reflexivity. Qed.
