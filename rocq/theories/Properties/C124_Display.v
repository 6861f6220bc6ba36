From Coq Require Import ZArith List Bool Lia.
From Verif Require Import Model.Display Spec.Display Proofs.Display.
Import ListNotations.
Open Scope Z_scope.

(* sizes within the limit stay, others keep their proportions but for less than a pixel *)
Theorem C124_limit : forall most s, 0 < fst most -> 0 < snd most -> 0 < fst s -> 0 < snd s -> (fits s most -> limit most s = s) /\ alike (limit most s) s.
Proof.
  intros [mw mh] [w h] A B C D. cbn [fst snd] in *. assert (L := limit_cases mw mh w h A B). unfold fits, alike. cbn [fst snd]. revert L; generalize (limit (mw, mh) (w, h)); intros l L; destruct L as [L1 L2|L1 L2|L1 L2]; cbn [fst snd].
  - split; [reflexivity|]. left. lia.
  - split; [lia|]. destruct (share mw h w) as [_ X]; lia.
  - split; [lia|]. destruct (share mh w h) as [_ X]; lia.
Qed.
Print Assumptions C124_limit.
(* with a limit at least as wide as high, as the default one, nothing is enlarged, and the result is within the limit unless the image is wider than the limit and high *)
Theorem C124_fits : forall most s, 0 < snd most <= fst most -> 0 < fst s -> 0 < snd s -> fits (limit most s) s /\ (fits (limit most s) most <-> ~ (fst most < fst s /\ snd s < fst s /\ snd most < fst most * snd s / fst s)).
Proof.
  intros [mw mh] [w h] A C D. cbn [fst snd] in *. assert (L := limit_cases mw mh w h ltac:(lia) ltac:(lia)). unfold fits. revert L; generalize (limit (mw, mh) (w, h)); intros l L; destruct L as [L1 L2|L1 L2|L1 L2]; cbn [fst snd].
  - lia.
  - destruct (share mw h w) as [_ X]; [lia..|]. assert (mw * h / w <= h) by (apply (le_of_mul _ _ w C); nia). lia.
  - destruct (share mh w h) as [_ X]; [lia..|]. assert (Q : mh <= h) by lia. assert (mh * w / h <= w) by (apply (le_of_mul _ _ h D); nia). assert (F : mh * w / h <= mw). { destruct (Z_le_gt_dec w mw); [lia|]. assert (mh * w / h <= mh) by (apply (le_of_mul _ _ h D); nia). lia. } lia.
Qed.
Print Assumptions C124_fits.
(* within square limits all is *)
Theorem C124_square : forall m s, 0 < m -> 0 < fst s -> 0 < snd s -> fits (limit (m, m) s) (m, m) /\ fits (limit (m, m) s) s.
Proof.
  intros m [w h] M C D. destruct (C124_fits (m, m) (w, h)) as [A B]; [cbn; lia|exact C|exact D|]. split; [|exact A]. apply B. cbn [fst snd] in *. intros (X & Y & Z). destruct (share m h w) as [_ E]; [lia..|]. assert (m * h / w <= m) by (apply (le_of_mul _ _ w C); nia). lia.
Qed.
Print Assumptions C124_square.
(* but not within the default one *)
Theorem C124_fits_refuted : limit (2560, 1440) (3000, 2900) = (2560, 2474) /\ ~ fits (limit (2560, 1440) (3000, 2900)) (2560, 1440).
Proof. split; [reflexivity|]. change (limit (2560, 1440) (3000, 2900)) with (2560, 2474). unfold fits. cbn [fst snd]. lia. Qed.
Print Assumptions C124_fits_refuted.
(* and with a limit higher than wide, images may be enlarged, beyond the limit *)
Theorem C124_enlarged_refuted : limit (100, 1000) (200, 300) = (666, 1000).
Proof. reflexivity. Qed.
Print Assumptions C124_enlarged_refuted.
(* flat images are left with no height, so with tiles of no area *)
Theorem C124_flat_refuted : forall mw mh w, 0 < mw -> 0 < mh -> mw < w -> 1 < w -> tile (mw, mh) (w, 1) 1 1 = (mw, 0).
Proof.
  intros mw mh w A B C D. unfold tile. cbn [fst snd]. rewrite Z.mul_1_r, Z.mul_1_l. unfold limit. assert (M : 0 < mw * mh) by nia. destruct (Z.ltb_spec 0 (mw * mh)); [|lia]. destruct (Z.ltb_spec mw w); [|lia]. destruct (Z.ltb_spec 1 w); [|lia]. cbn [andb orb]. rewrite !Z.div_1_r, Z.mul_1_r. rewrite Z.div_small by lia. reflexivity.
Qed.
Print Assumptions C124_flat_refuted.
(* the window is a grid of whole tiles, less than one pixel for each tile smaller than the size computed *)
Theorem C124_window : forall most s rows cols, 0 < rows -> 0 < cols -> let l := limit most (fst s * cols, snd s * rows) in let win := window (tile most s rows cols) rows cols in
  fst win = fst (tile most s rows cols) * cols /\ snd win = snd (tile most s rows cols) * rows /\ fits win l /\ fst l < fst win + cols /\ snd l < snd win + rows.
Proof. intros most s rows cols R C. cbv zeta. split; [reflexivity|]. split; [reflexivity|]. exact (tile_window most s rows cols R C). Qed.
Print Assumptions C124_window.

(* an event in the window is inside of just one tile, at the internal position; it is that tile which is marked *)
Theorem C124_mouse : forall t rows cols x y, 0 < fst t -> 0 < snd t -> 0 <= x < fst t * cols -> 0 <= y < snd t * rows -> exists row col, 0 <= row < rows /\ 0 <= col < cols /\
  let p := internal t (window t rows cols) x y in 0 <= fst p < fst t /\ 0 <= snd p < snd t /\ x = fst t * col + fst p /\ y = snd t * row + snd p /\ forall r c, marked t x y r c = true <-> r = row /\ c = col.
Proof.
  intros t rows cols x y A B X Y. exists (Z.quot y (snd t)), (Z.quot x (fst t)). destruct (in_tile (fst t) cols x A X) as (X1 & X2 & X3), (in_tile (snd t) rows y B Y) as (Y1 & Y2 & Y3). rewrite internal_in by assumption. cbv zeta. cbn [fst snd]. split; [exact Y3|]. split; [exact X3|]. split; [exact X2|]. split; [exact Y2|]. split; [exact X1|]. split; [exact Y1|].
  intros r c. unfold marked. rewrite andb_true_iff, !Z.eqb_eq. split; intros [-> ->]; split; reflexivity.
Qed.
Print Assumptions C124_mouse.
(* the cursor is drawn just for events in the window *)
Theorem C124_cursor : forall t rows cols x y, 0 < fst t -> 0 < snd t -> 0 < rows -> 0 < cols -> drawn t (window t rows cols) x y = true <-> 0 <= x < fst t * cols /\ 0 <= y < snd t * rows.
Proof.
  intros t rows cols x y A B R C. unfold drawn. split.
  - intros H. unfold internal in H. destruct (_ && _ && _ && _ && _) eqn:I in H.
    + rewrite !andb_true_iff, !Z.leb_le, !Z.ltb_lt in I. unfold window in I. cbn [fst snd] in I. lia.
    + exfalso. rewrite !andb_true_iff, !Z.leb_le, !Z.ltb_lt in H. assert (P : 0 < fst t * snd t) by nia. rewrite !andb_false_iff, !Z.leb_gt, !Z.ltb_ge in I. unfold window in I. cbn [fst snd] in I. assert (fst t <= fst t * cols) by nia. assert (snd t <= snd t * rows) by nia. lia.
  - intros [X Y]. rewrite internal_in by assumption. destruct (in_tile (fst t) cols x A X) as (_ & X2 & _), (in_tile (snd t) rows y B Y) as (_ & Y2 & _). rewrite !andb_true_iff, !Z.leb_le, !Z.ltb_lt. lia.
Qed.
Print Assumptions C124_cursor.

(* after any keys the album shows the image that is as many ahead, around the end, as there were keys for the next one less those for the previous one *)
Theorem C124_album : forall n ks, 0 < n -> album n ks = (Z.of_nat (length (filter (fun k => match k with Next => true | _ => false end) ks)) - Z.of_nat (length (filter (fun k => match k with Previous => true | _ => false end) ks))) mod n.
Proof.
  intros n ks N. unfold album. assert (G : forall i, 0 <= i < n -> fold_left (turn n) ks i = (i + (Z.of_nat (length (filter (fun k => match k with Next => true | _ => false end) ks)) - Z.of_nat (length (filter (fun k => match k with Previous => true | _ => false end) ks)))) mod n); [|rewrite G by lia; reflexivity].
  induction ks as [|k ks IH]; intros i I; cbn [fold_left filter length]; [change (Z.of_nat 0) with 0; rewrite Z.mod_small by lia; lia|].
  destruct k; cbn [turn length].
  - rewrite IH by (apply Z.mod_pos_bound; exact N). rewrite Z.add_mod_idemp_l by lia. f_equal. lia.
  - destruct (Z.ltb_spec 0 i).
    + rewrite IH by lia. f_equal. lia.
    + rewrite IH by lia. replace i with 0 by lia. match goal with |- _ = ?b mod n => rewrite <- (Z.mod_add b 1 n) by lia end. f_equal. lia.
  - apply IH. exact I.
Qed.
Print Assumptions C124_album.

Example C124_ex_limit : limit (2560, 1440) (3000, 1000) = (2560, 853) /\ tile (2560, 1440) (1000, 1000) 2 3 = (853, 853).
Proof. split; reflexivity. Qed.
Example C124_ex_mouse : internal (100, 50) (window (100, 50) 2 3) 230 70 = (30, 20) /\ marked (100, 50) 230 70 1 2 = true.
Proof. split; reflexivity. Qed.
Example C124_ex_album : album 3 [Previous; Next; Next; Other; Next] = 2.
Proof. reflexivity. Qed.
