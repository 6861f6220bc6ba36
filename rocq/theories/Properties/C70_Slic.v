(** C70: SLIC::enforceConnectivity turns any label image into connected superpixels. *)
From Coq Require Import ZArith List Bool Lia.
From Verif Require Import Lib.Grid Model.Slic Spec.Slic Proofs.Slic.
Import ListNotations.
Open Scope Z_scope.

(** with a positive size limit: every pixel is labelled, every label covers one connected region, no component of the
    input is split, the components of at least max(2, limit) pixels keep labels of their own, and these are all the labels counted *)
Theorem C70_connected : forall h w lab lim, 0 <= h -> 0 <= w -> 1 <= lim -> exists f n, enforce h w lab lim = Some (f, n) /\
  (forall p, within h w p -> 0 <= f p < Z.max 1 n) /\
  (forall k p q, region h w f k p -> region h w f k q -> linked (region h w f k) p q) /\
  (forall p q, component h w lab p q -> f q = f p) /\
  (forall p q a b, within h w p -> within h w q -> has_size (component h w lab p) a -> has_size (component h w lab q) b ->
     Z.max 2 lim <= a -> Z.max 2 lim <= b -> f p = f q -> component h w lab p q) /\
  (forall k, 0 <= k < n -> exists p a, within h w p /\ has_size (component h w lab p) a /\ Z.max 2 lim <= a /\ f p = k).
Proof.
  intros h w lab lim Hh Hw Hl. destruct (enforce_spec h w lab lim Hh Hw Hl) as (f & n & E & G & P).
  exists f, n. split; [exact E|]. split; [|split; [|split; [|split]]].
  - intros p Wp. specialize (P p Wp). destruct (g_range _ _ _ _ _ _ G p Wp); lia.
  - intros k p q [Wp <- ] [Wq Q]. exact (g_conn _ _ _ _ _ _ G p q Wp Wq (P p Wp) Q).
  - intros p q C. exact (same_comp h w lab lim f n p q G C).
  - intros p q a b Wp Wq A B La Lb. apply (g_big _ _ _ _ _ _ G); auto; [exists a; auto|exists b; auto].
  - intros k K. destruct (g_own _ _ _ _ _ _ G k K) as (p & Wp & (a & A & La) & Q). exists p, a. auto.
Qed.
Print Assumptions C70_connected.

(** a smaller component is merged into another one, unless it is the whole image *)
Theorem C70_merged : forall h w lab lim f n, 0 <= h -> 0 <= w -> 1 <= lim -> enforce h w lab lim = Some (f, n) ->
  forall p a, within h w p -> has_size (component h w lab p) a -> a < Z.max 2 lim ->
  (exists q, within h w q /\ f q = f p /\ ~ component h w lab p q) \/ (forall q, within h w q -> component h w lab p q).
Proof.
  intros h w lab lim f n Hh Hw Hl E p a Wp A La. destruct (enforce_spec h w lab lim Hh Hw Hl) as (f' & n' & E' & G & P).
  rewrite E in E'. injection E' as <- <-. destruct (g_small _ _ _ _ _ _ G p Wp (P p Wp)) as [X|X].
  - intros (b & B & Lb). pose proof (size_unique _ _ _ A B). lia.
  - left. exact X.
  - right. intros q Wq. apply X; auto.
Qed.
Print Assumptions C70_merged.

(** the limit is positive for every image of at least two rows and columns (the diameter is at least 3: SLIC.cpp:173) *)
Theorem C70_limit : forall w h d, 3 <= d -> 2 <= w -> 2 <= h -> exists nb, superpixels w h d SIZE = Some nb /\ 1 <= lims w h nb.
Proof.
  intros w h d D W H. exists (div_up w d * div_up h d). split; [|exact (lims_positive w h d D W H)].
  unfold superpixels, diameter. replace (d =? 0) with false by (symmetry; apply Z.eqb_neq; lia). reflexivity.
Qed.
Print Assumptions C70_limit.

(** without a limit, the components of one pixel are exactly the ones left without a label *)
Theorem C70_no_limit : forall h w lab lim, 0 <= h -> 0 <= w -> lim <= 0 -> exists f n, enforce h w lab lim = Some (f, n) /\
  (forall p, within h w p -> (f p = -1 <-> has_size (component h w lab p) 1)) /\
  (forall p q, within h w p -> within h w q -> 0 <= f p -> (f p = f q <-> component h w lab p q)) /\
  (forall p, within h w p -> f p = -1 \/ 0 <= f p < n).
Proof. exact enforce_zero. Qed.
Print Assumptions C70_no_limit.

(** asking for a number of superpixels gives at least as many; more than there are pixels divides by zero *)
Theorem C70_requested : forall w h n, 0 < w -> 0 < h -> 0 < n -> n <= w * h -> exists nb, superpixels w h n NSPX = Some nb /\ n <= nb.
Proof. exact init_some. Qed.
Print Assumptions C70_requested.
Theorem C70_requested_fault : forall w h n, 0 <= w -> 0 <= h -> 0 < n -> (superpixels w h n NSPX = None <-> w * h < n).
Proof. exact init_zero. Qed.
Print Assumptions C70_requested_fault.
Theorem C70_requested_refuted : exists w h n, 0 < w /\ 0 < h /\ 0 < n /\ superpixels w h n NSPX = None.
Proof. exists 2, 2, 5. repeat split; reflexivity. Qed.
Print Assumptions C70_requested_refuted.

(** "every pixel gets a label" fails on an image of one row *)
Definition row_image : image := fun p => if snd p =? 3 then 1 else 0.
Theorem C70_labelled_refuted : exists h w d nb lab f n p, 3 <= d /\ superpixels w h d SIZE = Some nb /\
  enforce h w lab (lims w h nb) = Some (f, n) /\ within h w p /\ f p = -1.
Proof.
  exists 1, 4, 3, 2, row_image.
  destruct (enforce 1 4 row_image (lims 4 1 2)) as [[f n]|] eqn:E; [|vm_compute in E; discriminate].
  exists f, n, (0, 3). split; [lia|]. split; [reflexivity|]. split; [reflexivity|]. split; [unfold within; cbn; lia|].
  vm_compute in E. injection E as <- <-. reflexivity.
Qed.
Print Assumptions C70_labelled_refuted.

(** "the number returned counts the labels" fails when every component is small *)
Definition checkers : image := fun p => (fst p + snd p) mod 2.
Theorem C70_count_refuted : exists h w d nb lab f n p, 3 <= d /\ superpixels w h d SIZE = Some nb /\
  enforce h w lab (lims w h nb) = Some (f, n) /\ within h w p /\ n <= f p.
Proof.
  exists 2, 4, 3, 2, checkers.
  destruct (enforce 2 4 checkers (lims 4 2 2)) as [[f n]|] eqn:E; [|vm_compute in E; discriminate].
  exists f, n, (0, 0). split; [lia|]. split; [reflexivity|]. split; [reflexivity|]. split; [unfold within; cbn; lia|].
  vm_compute in E. injection E as <- <-. vm_compute. discriminate.
Qed.
Print Assumptions C70_count_refuted.

(** "components of at most [limit] pixels are merged" fails: the count starts with the seed and meets it again *)
Definition dots : image := fun p => if (fst p =? 1) && ((snd p =? 1) || (snd p =? 2)) then 1 else 0.
Lemma dots_size : has_size (component 3 6 dots (1, 1)) 2.
Proof.
  exists [(1, 1); (1, 2)]. split; [|split; [|reflexivity]].
  - apply NoDup_cons; [intros [X|[]]; discriminate X|apply NoDup_cons; [intros []|apply NoDup_nil]].
  - intros [y x]. split.
    + intros [E|[E|[]]]; injection E as <- <-.
      * constructor. split; [unfold within; cbn; lia|reflexivity].
      * apply (linked_step _ _ (1, 1)); [constructor; split; [unfold within; cbn; lia|reflexivity]|reflexivity|].
        split; [unfold within; cbn; lia|reflexivity].
    + intros L. apply linked_end in L as [_ D]. change (dots (1, 1)) with 1 in D. unfold dots in D. cbn [fst snd] in D.
      destruct ((y =? 1) && ((x =? 1) || (x =? 2))) eqn:C; [|discriminate D].
      apply andb_true_iff in C as [C1 C2]. apply Z.eqb_eq in C1 as ->. apply orb_true_iff in C2 as [C2|C2]; apply Z.eqb_eq in C2 as ->; cbn; auto.
Qed.
Theorem C70_small_refuted : exists h w d nb lab f n p a, 3 <= d /\ superpixels w h d SIZE = Some nb /\
  enforce h w lab (lims w h nb) = Some (f, n) /\ within h w p /\ has_size (component h w lab p) a /\ a <= lims w h nb /\
  (forall q, within h w q -> f q = f p -> dots q = dots p).
Proof.
  exists 3, 6, 3, 2, dots.
  destruct (enforce 3 6 dots (lims 6 3 2)) as [[f n]|] eqn:E; [|vm_compute in E; discriminate].
  exists f, n, (1, 1), 2. split; [lia|]. split; [reflexivity|]. split; [reflexivity|]. split; [unfold within; cbn; lia|].
  split; [exact dots_size|]. split; [vm_compute; discriminate|].
  assert (K : forallb (fun q => negb (f q =? f (1, 1)) || (dots q =? dots (1, 1))) (grid 0 3 0 6) = true).
  { vm_compute in E. injection E as <- <-. vm_compute. reflexivity. }
  rewrite forallb_forall in K. intros q Wq Q. apply within_grid in Wq. specialize (K q Wq).
  rewrite Q, Z.eqb_refl in K. cbn [negb orb] in K. apply Z.eqb_eq in K. exact K.
Qed.
Print Assumptions C70_small_refuted.

(** a 2 x 4 image with three components, one of them of one pixel *)
Definition three : image := fun p => if snd p <? 2 then 5 else if (fst p =? 0) && (snd p =? 3) then 9 else 7.
Example C70_ex : match enforce 2 4 three (lims 4 2 2) with
  | Some (f, n) => (map f (grid 0 2 0 4), n) = ([0; 0; 1; 1; 0; 0; 1; 1], 2) | None => False end.
Proof. reflexivity. Qed.
(** under a limit of 3 the two dots disappear in the background *)
Example C70_ex_merged : within 3 6 (1, 1) /\ has_size (component 3 6 dots (1, 1)) 2 /\ 2 < Z.max 2 3 /\
  match enforce 3 6 dots 3 with Some (f, n) => map f (grid 0 3 0 6) = repeat 0 18 /\ n = 1 | None => False end.
Proof. split; [unfold within; cbn; lia|]. split; [exact dots_size|]. split; [reflexivity|]. vm_compute. split; reflexivity. Qed.
