(** C41: block non-maximum suppression and one-dimensional local maxima. *)
From Coq Require Import ZArith List Bool Lia.
From Verif Require Import Lib.Grid Model.Nms Spec.Nms Proofs.Nms.
Import ListNotations.
Open Scope Z_scope.

(** images without negative values, or any image without a mask *)
Definition safe (f : Z -> Z -> Z) (sel : Z * Z -> bool) (M N : Z) : Prop := (forall y x, 0 <= f y x) \/ (forall p, in_image M N p -> sel p = true).

(** the function never writes outside its output *)
Theorem C41_defined : forall f sel M N W pick, picks_max f pick -> 0 <= W -> 0 <= M -> 0 <= N -> safe f sel M N ->
  exists r, nms f sel M N W pick = Some r.
Proof. exact (fun f sel M N W pick PK HW HM HN S => match nms_defined f sel M N W pick PK HW HM HN S with ex_intro _ r (conj E _) => ex_intro _ r E end). Qed.
Print Assumptions C41_defined.

(** marked pixels: strictly above every selected pixel of the window outside their own tile, not below any inside it *)
Theorem C41_marks_are_maxima : forall f sel M N W pick, picks_max f pick -> 0 <= W -> 0 <= M -> 0 <= N -> safe f sel M N ->
  forall r, nms f sel M N W pick = Some r -> forall p, In p r ->
  in_image M N p /\ sel p = true /\
  (forall q, in_image M N q -> sel q = true -> close W q p -> q <> p ->
     (same_tile W q p -> f (fst q) (snd q) <= f (fst p) (snd p)) /\ (~ same_tile W q p -> f (fst q) (snd q) < f (fst p) (snd p))).
Proof. exact nms_sound. Qed.
Print Assumptions C41_marks_are_maxima.

(** no two marks within the window of each other *)
Theorem C41_marks_are_separated : forall f sel M N W pick, picks_max f pick -> 0 <= W -> 0 <= M -> 0 <= N -> safe f sel M N ->
  forall r, nms f sel M N W pick = Some r -> forall p q, In p r -> In q r -> close W p q -> p = q.
Proof. exact nms_separated. Qed.
Print Assumptions C41_marks_are_separated.

(** every strict maximum of its window is marked, provided its value is positive or its window reaches beyond its tile *)
Theorem C41_strict_maxima_are_marked : forall f sel M N W pick, picks_max f pick -> 0 <= W -> 0 <= M -> 0 <= N -> safe f sel M N ->
  forall r, nms f sel M N W pick = Some r -> forall p, in_image M N p -> sel p = true ->
  (forall q, in_image M N q -> sel q = true -> close W q p -> q <> p -> f (fst q) (snd q) < f (fst p) (snd p)) ->
  (0 < f (fst p) (snd p) \/ exists q, in_image M N q /\ sel q = true /\ close W q p /\ ~ same_tile W q p) ->
  In p r.
Proof. exact nms_complete. Qed.
Print Assumptions C41_strict_maxima_are_marked.

(** ** a search for the first maximum, for the concrete cases *)
Fixpoint pick_first (f : Z -> Z -> Z) (l : list (Z * Z)) : Z * Z :=
  match l with
  | [] => (-1, -1)
  | [a] => a
  | a :: r => let b := pick_first f r in if f (fst a) (snd a) <? f (fst b) (snd b) then b else a
  end.
Lemma pick_first_ok : forall f, picks_max f (pick_first f).
Proof.
  intros f l. induction l as [|a [|b r] IH]; intro NE; [ congruence | |].
  - cbn. split; auto. intros q [<-|[]]. lia.
  - specialize (IH ltac:(congruence)). destruct IH as [I Mx].
    change (pick_first f (a :: b :: r)) with
      (if f (fst a) (snd a) <? f (fst (pick_first f (b :: r))) (snd (pick_first f (b :: r))) then pick_first f (b :: r) else a).
    destruct (Z.ltb_spec (f (fst a) (snd a)) (f (fst (pick_first f (b :: r))) (snd (pick_first f (b :: r))))) as [H|H].
    + split; [ now right |]. intros q [<-|J]; [ lia | now apply Mx ].
    + split; [ now left |]. intros q [<-|J]; [ lia |]. specialize (Mx q J). lia.
Qed.

(** the side condition is needed: a strict maximum that is not positive, alone in its tile, is lost *)
Definition neg22 : Z -> Z -> Z := fun y x => if (y =? 0) && (x =? 1) then -3 else -5.
Theorem C41_all_strict_maxima_marked_refuted : exists f M N W p, in_image M N p /\
  (forall q, in_image M N q -> close W q p -> q <> p -> f (fst q) (snd q) < f (fst p) (snd p)) /\
  nms f (fun _ => true) M N W (pick_first f) = Some [].
Proof.
  exists neg22, 2, 2, 3, (0, 1). split; [ unfold in_image; cbn; lia |]. split; [| vm_compute; reflexivity ].
  intros [y x] _ _ D. unfold neg22. cbn [fst snd]. destruct (Z.eqb_spec y 0), (Z.eqb_spec x 1); cbn [andb]; cbn; try lia. subst. congruence.
Qed.
Print Assumptions C41_all_strict_maxima_marked_refuted.

(** with a mask and negative values an empty tile makes the function write above the first row *)
Theorem C41_masked_negative_write_refuted : exists f sel, nms f sel 4 4 1 (pick_first f) = None.
Proof. exists (fun _ _ => -1), (fun p => snd p <? 2). vm_compute. reflexivity. Qed.
Print Assumptions C41_masked_negative_write_refuted.

(** *** directional tests *)
Theorem C41_line_maximum : forall mem base sz step H,
  (forall k, - Z.of_nat H <= k <= Z.of_nat H -> 0 <= base + sz * (k * step) < 2^64) ->
  locmax_line mem base sz step H = true <-> line_max (fun k => mem (base + sz * (k * step))) (Z.of_nat H).
Proof. exact locmax_line_ok. Qed.
Print Assumptions C41_line_maximum.

Theorem C41_diagonal_maximum : forall (inv : bool) mem base sz cs rs H,
  let d := (if inv then -1 else 1) * cs + rs in
  (forall k, - Z.of_nat H <= k <= Z.of_nat H -> 0 <= base + sz * (k * d) < 2^64) ->
  locmax_diag inv mem base sz cs rs H = true <-> line_max (fun k => mem (base + sz * (k * d))) (Z.of_nat H).
Proof. exact locmax_diag_ok. Qed.
Print Assumptions C41_diagonal_maximum.

(** at most one position in any H+1 consecutive ones passes *)
Theorem C41_line_maximum_unique : forall v H i j, line_max (fun k => v (i + k)) H -> line_max (fun k => v (j + k)) H -> Z.abs (i - j) <= H -> i = j.
Proof. exact line_max_unique. Qed.
Print Assumptions C41_line_maximum_unique.

(** a plateau of two equal maxima in neighbouring tiles is marked nowhere; inside a tile one of them is marked *)
Example C41_ex_marks : nms (fun y x => if (y =? 1) && (x =? 1) then 9 else if (y =? 0) && (x =? 4) then 7 else 1) (fun _ => true) 5 6 1 (pick_first (fun y x => if (y =? 1) && (x =? 1) then 9 else if (y =? 0) && (x =? 4) then 7 else 1)) = Some [(1, 1); (0, 4)].
Proof. vm_compute. reflexivity. Qed.
Example C41_ex_plateau : let f := fun _ x => if (x =? 1) || (x =? 2) then 9 else 1 in let g := fun _ x => if (x =? 2) || (x =? 3) then 9 else 1 in
  nms f (fun _ => true) 1 6 1 (pick_first f) = Some [] /\ nms g (fun _ => true) 1 6 1 (pick_first g) = Some [(0, 0); (0, 2)].
Proof. split; vm_compute; reflexivity. Qed.
Example C41_ex_line : locmax_line (fun a => if a =? 100 then 8 else if a =? 104 then 8 else 3) 100 4 1 2 = true /\
  locmax_line (fun a => if a =? 100 then 8 else if a =? 104 then 8 else 3) 104 4 1 2 = false.
Proof. split; vm_compute; reflexivity. Qed.
