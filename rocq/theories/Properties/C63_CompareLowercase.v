(** C63: compare_lowercase is a strict weak order, so it can be given to std::sort. *)
From Coq Require Import List Arith.
From Verif Require Import Model.Strings Spec.Strings Proofs.Strings.
Import ListNotations.

Theorem C63_irreflexive : forall a, compare_lowercase a a = false.
Proof. intros a. exact (str_lt_irrefl (map tolower a)). Qed.
Print Assumptions C63_irreflexive.
Theorem C63_transitive : forall a b c, compare_lowercase a b = true -> compare_lowercase b c = true -> compare_lowercase a c = true.
Proof. intros a b c. exact (str_lt_trans (map tolower a) (map tolower b) (map tolower c)). Qed.
Print Assumptions C63_transitive.
(** incomparable strings are exactly those equal up to the case of ASCII letters *)
Theorem C63_incomparable_iff_equal_ignoring_case : forall a b,
  (compare_lowercase a b = false /\ compare_lowercase b a = false) <-> same_text a b.
Proof.
  intros a b. rewrite same_text_lower. split.
  - intros [H1 H2]. exact (str_lt_total _ _ H1 H2).
  - intros H. unfold compare_lowercase. rewrite H. split; exact (str_lt_irrefl (map tolower b)).
Qed.
Print Assumptions C63_incomparable_iff_equal_ignoring_case.
(** otherwise a proper prefix comes first, or the first differing letters decide by their lower-case codes *)
Theorem C63_lexicographic : forall a b, compare_lowercase a b = true <->
  (exists p c r, b = p ++ c :: r /\ same_text a p) \/
  (exists p q c d r s lc ld, a = p ++ c :: r /\ b = q ++ d :: s /\ same_text p q /\ lower_of c lc /\ lower_of d ld /\ lc < ld).
Proof. exact compare_lowercase_spec. Qed.
Print Assumptions C63_lexicographic.
Example C63_ex : compare_lowercase [65; 98] [97; 67] = true /\ compare_lowercase [65] [97] = false /\ compare_lowercase [97] [65] = false.
Proof. repeat split. Qed.
