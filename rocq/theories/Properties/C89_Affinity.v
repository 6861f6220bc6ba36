From Coq Require Import ZArith Reals List Bool Lia Lra.
From Verif Require Import Lib.Grid Model.Affinity Spec.Affinity Proofs.Affinity.
Import ListNotations.
Open Scope Z_scope.

(* the image affinity map leaves out the borders; an entry is the score of the two windows if both centres are wanted and both windows are in the images, and otherwise -1 *)
Theorem C89_image : forall rows cols n offs roi1 roi2 dist im1 im2 r c k, 0 <= r < rows - n / 2 * 2 -> 0 <= c < cols - n / 2 * 2 -> (k < length offs)%nat ->
  let d := nth k offs 0 in image_affinity rows cols n offs roi1 roi2 dist im1 im2 (r, c, k) =
    if matchable cols (n / 2) (wanted roi1) (wanted roi2) d (r + n / 2) (c + n / 2) then dist (window im1 r c) (window im2 r (c + d)) else (-1)%R.
Proof. exact image_entry. Qed.
Print Assumptions C89_image.

(* scores by mutual information are never negative, so that they differ from the mark for missing entries *)
Theorem C89_mi : forall mi a b, (0 <= mi_score mi a b)%R /\ ((mi a b <= 1)%R -> mi_score mi a b = (1 - mi a b)%R) /\ ((1 <= mi a b)%R -> mi_score mi a b = 0%R).
Proof. intros mi a b. unfold mi_score. split; [ apply Rmax_r |]. split; intro H; [ apply Rmax_left | apply Rmax_right ]; lra. Qed.
Print Assumptions C89_mi.

(* those windows never leave the images *)
Theorem C89_inside : forall rows cols n in1 in2 d r c i j, Z.odd n = true -> 0 <= r < rows - n / 2 * 2 -> 0 <= c < cols - n / 2 * 2 ->
  matchable cols (n / 2) in1 in2 d (r + n / 2) (c + n / 2) = true -> 0 <= i < n -> 0 <= j < n -> 0 <= r + i < rows /\ 0 <= c + j < cols /\ 0 <= c + d + j < cols.
Proof.
  intros rows cols n in1 in2 d r c i j N R C M I J. unfold matchable in M. rewrite !andb_true_iff, Z.leb_le, Z.ltb_lt in M.
  assert (n = 2 * (n / 2) + 1) by (rewrite <- Z.div2_div; pose proof (Z.div2_odd n) as E; rewrite N in E; exact E). lia.
Qed.
Print Assumptions C89_inside.

(* exchanging the images gives the same value at the matched pixel, for any symmetric score *)
Theorem C89_image_symmetric : forall rows cols n offs offs' roi1 roi2 dist im1 im2 r c k k', (forall a b, dist a b = dist b a) ->
  0 <= r < rows - n / 2 * 2 -> 0 <= c < cols - n / 2 * 2 -> 0 <= c + nth k offs 0 < cols - n / 2 * 2 -> (k < length offs)%nat -> (k' < length offs')%nat -> nth k' offs' 0 = - nth k offs 0 ->
  image_affinity rows cols n offs roi1 roi2 dist im1 im2 (r, c, k) = image_affinity rows cols n offs' roi2 roi1 dist im2 im1 (r, c + nth k offs 0, k').
Proof. exact image_symmetric. Qed.
Print Assumptions C89_image_symmetric.

(* the sum of squared differences is one such score, and is 0 exactly for equal windows; so -1 is never a score *)
Theorem C89_ssd : forall n a b, ssd n a b = ssd n b a /\ (0 <= ssd n a b)%R /\ (ssd n a b = 0%R <-> forall i j, 0 <= i < n -> 0 <= j < n -> a i j = b i j).
Proof. intros n a b. split; [ apply ssd_sym |]. split; [ rewrite ssd_sum; apply sqrt_pos | apply ssd_zero ]. Qed.
Print Assumptions C89_ssd.

(* for every patch size, an entry of the descriptor affinity map is the average distance over the pixels around that can be matched by the same displacement, and -1 if there are none *)
Theorem C89_descriptors : forall rows cols n offs roi1 roi2 dist r c k, 1 <= n -> 0 <= r < rows -> 0 <= c < cols -> (k < length offs)%nat -> (forall p q, (0 <= dist p q)%R) ->
  let d := nth k offs 0 in let l := supporters rows cols (n / 2) (wanted roi1) (wanted roi2) d r c in
  desc_affinity rows cols n offs roi1 roi2 dist (r, c, k) = match l with [] => (-1)%R | _ => average (fun p => dist p (fst p, snd p + d)) l end.
Proof. exact desc_entry. Qed.
Print Assumptions C89_descriptors.

(* the map of the second camera can be read off the map of the first, for every patch size and all regions of interest *)
Theorem C89_symmetric : forall rows cols n offs offs' roi1 roi2 dist r c k k', 1 <= n -> (forall p q, (0 <= dist p q)%R) ->
  0 <= r < rows -> 0 <= c < cols -> 0 <= c + nth k offs 0 < cols -> (k < length offs)%nat -> (k' < length offs')%nat -> nth k' offs' 0 = - nth k offs 0 ->
  desc_affinity rows cols n offs roi1 roi2 dist (r, c, k) = desc_affinity rows cols n offs' roi2 roi1 (fun p q => dist q p) (r, c + nth k offs 0, k').
Proof. exact desc_symmetric. Qed.
Print Assumptions C89_symmetric.

(* for descriptors of length one without negative entries all values are -1 or between 0 and the square root of two *)
Theorem C89_bounds : forall rows cols n offs roi1 roi2 (d1 d2 : Z * Z -> list R) r c k, 1 <= n -> 0 <= r < rows -> 0 <= c < cols -> (k < length offs)%nat ->
  (forall p q, length (d1 p) = length (d2 q)) -> (forall p x, In x (d1 p) \/ In x (d2 p) -> (0 <= x)%R) -> (forall p, sum (fun x => (x * x)%R) (d1 p) = 1%R /\ sum (fun x => (x * x)%R) (d2 p) = 1%R) ->
  let v := desc_affinity rows cols n offs roi1 roi2 (fun p q => l2 (d1 p) (d2 q)) (r, c, k) in v = (-1)%R \/ (0 <= v <= sqrt 2)%R.
Proof.
  intros rows cols n offs roi1 roi2 d1 d2 r c k N R C K L P U v. unfold v. rewrite desc_entry by (auto; intros; apply l2_pos). cbv zeta. set (l := supporters _ _ _ _ _ _ _ _).
  destruct l as [|p0 l'] eqn:E; [ now left |]. right. rewrite <- E. apply average_bound; [ rewrite E; discriminate |]. intros p _. apply l2_unit; eauto; apply U.
Qed.
Print Assumptions C89_bounds.

(* with patches, an entry other than -1 does not tell that the pixel is wanted ... *)
Theorem C89_wanted_refuted : exists rows cols n offs roi1 dist r c k, 0 <= r < rows /\ 0 <= c < cols /\ (k < length offs)%nat /\ (forall p q, (0 <= dist p q)%R) /\
  wanted roi1 r c = false /\ desc_affinity rows cols n offs roi1 None dist (r, c, k) <> (-1)%R.
Proof.
  exists 1, 2, 3, [0], (Some (fun _ x => x =? 0)), (fun _ _ => 1%R), 0, 1, O. split; [ lia |]. split; [ lia |]. split; [ cbn; lia |]. split; [ intros; lra |]. split; [ reflexivity |].
  rewrite desc_entry by (lia || (cbn; lia) || (intros; lra)). cbv zeta. match goal with |- match ?l with _ => _ end <> _ => replace l with [(0, 0)] by reflexivity end. unfold average. cbn. lra.
Qed.
Print Assumptions C89_wanted_refuted.

(* ... nor that its match is in the other image *)
Theorem C89_match_refuted : exists rows cols n offs dist r c k, 0 <= r < rows /\ 0 <= c < cols /\ (k < length offs)%nat /\ (forall p q, (0 <= dist p q)%R) /\
  cols <= c + nth k offs 0 /\ desc_affinity rows cols n offs None None dist (r, c, k) <> (-1)%R.
Proof.
  exists 1, 2, 3, [1], (fun _ _ => 1%R), 0, 1, O. split; [ lia |]. split; [ lia |]. split; [ cbn; lia |]. split; [ intros; lra |]. split; [ cbn; lia |].
  rewrite desc_entry by (lia || (cbn; lia) || (intros; lra)). cbv zeta. match goal with |- match ?l with _ => _ end <> _ => replace l with [(0, 0)] by reflexivity end. unfold average. cbn. lra.
Qed.
Print Assumptions C89_match_refuted.

(* without patches it does tell both *)
Theorem C89_single : forall rows cols offs roi1 roi2 dist r c k, 0 <= r < rows -> 0 <= c < cols -> (k < length offs)%nat -> (forall p q, (0 <= dist p q)%R) ->
  let d := nth k offs 0 in desc_affinity rows cols 1 offs roi1 roi2 dist (r, c, k) <> (-1)%R <-> wanted roi1 r c = true /\ 0 <= c + d < cols /\ wanted roi2 r (c + d) = true.
Proof.
  intros rows cols offs roi1 roi2 dist r c k R C K P d. unfold desc_affinity. rewrite Z.eqb_refl. cbv zeta. rewrite raw_entry by assumption. fold d. unfold entry.
  destruct (matchable cols 0 (wanted roi1) (wanted roi2) d r c) eqn:M; unfold matchable in M.
  - rewrite !andb_true_iff, Z.leb_le, Z.ltb_lt in M. pose proof (P (r, c) (r, c + d)). split; [ intros _; repeat split; tauto || lia | intros _; lra ].
  - split; [ intro F; now elim F |]. intros (A & B & D) _. rewrite A, D, (proj2 (Z.leb_le _ _)), (proj2 (Z.ltb_lt _ _)) in M by lia. discriminate.
Qed.
Print Assumptions C89_single.

Example C89_ex_supporters : supporters 2 3 1 (fun _ _ => true) (fun r c => negb ((r =? 1) && (c =? 1))) 1 0 1 = [(0, 0); (0, 1); (1, 1)].
Proof. reflexivity. Qed.
Example C89_ex_matchable : matchable 5 1 (fun _ _ => true) (fun _ _ => true) 2 1 1 = true /\ matchable 5 1 (fun _ _ => true) (fun _ _ => true) 2 1 2 = false.
Proof. split; reflexivity. Qed.
Example C89_ex_unit : sum (fun x => (x * x)%R) [(3 / 5)%R; (4 / 5)%R] = 1%R.
Proof. cbn. lra. Qed.
