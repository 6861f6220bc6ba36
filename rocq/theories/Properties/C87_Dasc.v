From Coq Require Import ZArith Reals List Lia Lra.
From Verif Require Import Lib.Grid Model.Dasc Spec.Dasc Proofs.Dasc.
Import ListNotations.
Open Scope R_scope.

(* the loops of a horizontal pass meet the recurrences of the filter *)
Theorem C87_pass : forall rows cols w f, (1 <= cols)%Z -> mixed rows cols w f (filter_h rows cols w f).
Proof. exact filter_h_mixed. Qed.
Print Assumptions C87_pass.

(* the weights are lower across edges: they compare like the differences of the two pixels between which they act, side by side or one above the other *)
Theorem C87_edges : forall p img i r c r' c', proper p -> (1 <= r)%Z -> (1 <= c)%Z -> (1 <= r')%Z -> (1 <= c')%Z ->
  (ref_h p img i r c < ref_h p img i r' c' <-> Rabs (img r' (c' - 1)%Z - img r' c') < Rabs (img r (c - 1)%Z - img r c)) /\
  (ref_vt p img i c r < ref_vt p img i c' r' <-> Rabs (img (r' - 1)%Z c' - img r' c') < Rabs (img (r - 1)%Z c - img r c)) /\
  (ref_h p img i r c < ref_vt p img i c' r' <-> Rabs (img (r' - 1)%Z c' - img r' c') < Rabs (img r (c - 1)%Z - img r c)).
Proof.
  intros p img i r c r' c' P R1 C1 R2 C2. unfold ref_h, ref_vt. rewrite !weight_less by exact P. unfold diff_x, diff_y.
  rewrite (proj2 (Z.leb_le 1 r) R1), (proj2 (Z.leb_le 1 c) C1), (proj2 (Z.leb_le 1 r') R2), (proj2 (Z.leb_le 1 c') C2). tauto.
Qed.
Print Assumptions C87_edges.

(* what the recursive filter leaves at a pixel is a mean over the whole image: all weights are positive, and they do not depend on what is filtered *)
Theorem C87_mean : forall p rows cols img r c, proper p -> (0 <= r < rows)%Z -> (0 <= c < cols)%Z ->
  exists w, weighting rows cols w /\ forall f, smooth p rows cols img f r c = mean rows cols w f.
Proof.
  intros p rows cols img r c P R C. destruct (smooth_averages p rows cols img P) as (W & A).
  exists (W (r, c)). apply (A (r, c)). apply in_grid. cbn [fst snd]. lia.
Qed.
Print Assumptions C87_mean.

(* an entry tells the weighted correlation of the image and the displaced image: 1 for flat places, and otherwise exp(2(rho-1)) with rho between -1 and 1; the cut at 1 never acts *)
Theorem C87_correlation : forall p rows cols img k y x, proper p -> let a := nth k rp1 (0, 0)%Z in let b := nth k rp2 (0, 0)%Z in
  (0 < y + fst a < rows)%Z -> (0 < x + snd a < cols)%Z -> exists w, weighting rows cols w /\
    (forall f, smooth p rows cols img f (y + fst a)%Z (x + snd a)%Z = mean rows cols w f) /\
    let g := fun r c => if inside rows cols (r + (fst b - fst a)) (c + (snd b - snd a)) then img (r + (fst b - fst a))%Z (c + (snd b - snd a))%Z else 0 in
    let v1 := mean rows cols w (fun r c => (img r c - mean rows cols w img) * (img r c - mean rows cols w img)) in
    let v2 := mean rows cols w (fun r c => (g r c - mean rows cols w g) * (g r c - mean rows cols w g)) in
    let v12 := mean rows cols w (fun r c => (img r c - mean rows cols w img) * (g r c - mean rows cols w g)) in
    (sqrt (v1 * v2) <= eps -> entry p rows cols img k y x = 1) /\
    (eps < sqrt (v1 * v2) -> -1 <= v12 / sqrt (v1 * v2) <= 1 /\ entry p rows cols img k y x = exp (2 * (v12 / sqrt (v1 * v2) - 1))).
Proof. exact entry_correlation. Qed.
Print Assumptions C87_correlation.

(* entries are zero exactly where the first position of the pair is outside the image, its first row or its first column *)
Theorem C87_entries : forall p rows cols img k r c, proper p ->
  (exp (-4) <= entry p rows cols img k r c <= 1 /\ (0 < r + fst (nth k rp1 (0, 0)) < rows /\ 0 < c + snd (nth k rp1 (0, 0)) < cols)%Z) \/
  (entry p rows cols img k r c = 0 /\ ~ (0 < r + fst (nth k rp1 (0, 0)) < rows /\ 0 < c + snd (nth k rp1 (0, 0)) < cols)%Z).
Proof. exact entry_bounds. Qed.
Print Assumptions C87_entries.

(* every descriptor has 128 entries, none negative, and length one *)
Theorem C87_unit : forall p rows cols img r c, proper p ->
  length (descriptor p rows cols img r c) = 128%nat /\ energy (descriptor p rows cols img r c) = 1 /\ forall x, In x (descriptor p rows cols img r c) -> 0 <= x.
Proof. exact descriptor_unit. Qed.
Print Assumptions C87_unit.

(* past the border given by borderSize and one more row and column, all comparisons are made *)
Theorem C87_inner : forall p rows cols img k r c, proper p -> (k < 128)%nat -> (15 < r < rows - 15)%Z -> (15 < c < cols - 15)%Z ->
  exp (-4) <= entry p rows cols img k r c <= 1.
Proof. exact inner_entries. Qed.
Print Assumptions C87_inner.
(* validateROI leaves exactly the pixels for which both positions of all pairs are in the image *)
Theorem C87_validated : forall rows cols r c, validated rows cols r c = true <->
  forall k, (k < 128)%nat -> inside rows cols (r + fst (nth k rp1 (0, 0)%Z)) (c + snd (nth k rp1 (0, 0)%Z)) = true /\ inside rows cols (r + fst (nth k rp2 (0, 0)%Z)) (c + snd (nth k rp2 (0, 0)%Z)) = true.
Proof. exact validated_iff. Qed.
Print Assumptions C87_validated.
(* but not for all pixels validateROI leaves: at the first one, some pairs inside the image are taken as outside *)
Theorem C87_validated_refuted : exists rows cols r c k, validated rows cols r c = true /\ (k < length rp1)%nat /\
  (inside rows cols (r + fst (nth k rp1 (0, 0))) (c + snd (nth k rp1 (0, 0))) = true /\ inside rows cols (r + fst (nth k rp2 (0, 0))) (c + snd (nth k rp2 (0, 0))) = true)%Z /\
  forall p img, entry p rows cols img k r c = 0.
Proof. exact missed. Qed.
Print Assumptions C87_validated_refuted.

(* uniform images have the same descriptor everywhere inside, whatever their intensity *)
Theorem C87_uniform : forall p rows cols img v r c, proper p -> (forall y x, (0 <= y < rows)%Z -> (0 <= x < cols)%Z -> img y x = v) ->
  (15 < r < rows - 15)%Z -> (15 < c < cols - 15)%Z -> descriptor p rows cols img r c = repeat (1 / sqrt 128) 128.
Proof. exact uniform_descriptor. Qed.
Print Assumptions C87_uniform.

(* the parameters of the default configuration *)
Example C87_ex_params : proper {| sigma_s := 2; sigma_r := 1 / 5; iters := 1 |} /\ (15 < 16 < 100 - 15)%Z.
Proof. unfold proper. cbn. repeat split; try lra; lia. Qed.
(* one pass over the row 0 4 with weight one half: 0 2 from the left, then 1 2 from the right *)
Example C87_ex_pass : let g := filter_h 1 2 (fun _ _ => / 2) (fun _ c => if (c =? 0)%Z then 0 else 4) in g 0%Z 0%Z = 1 /\ g 0%Z 1%Z = 2.
Proof.
  unfold filter_h. replace (zrange 0 1) with [0%Z] by reflexivity. replace (zrange 1 (2 - 1)) with [1%Z] by reflexivity. replace (zrange 0 (2 - 1)) with [0%Z] by reflexivity.
  unfold to_left, to_right, put. cbn. split; field.
Qed.
