From Coq Require Import ZArith List Bool Lia.
From Verif Require Import Lib.Grid Model.SubPix Spec.SubPix Proofs.SubPix.
Import ListNotations.
Open Scope Z_scope.

(* bilinear interpolation of the image that goes on with its border pixels, at all places but those less than one pixel before the first row or column *)
Theorem C121_bilinear : forall m d x y lo n, 0 < d -> 0 < rows m -> 0 < cols m -> (x <= - d \/ 0 <= x) -> (y <= - d \/ 0 <= y) -> d * (lo + 1) <= x -> x < d * (lo + n - 2) -> d * (lo + 1) <= y -> y < d * (lo + n - 2) -> lo <= -1 -> 2 < lo + n ->
  mix m Replicate d x y = Some (bilinear (extended (rows m) (cols m) (px m)) lo n d x y).
Proof.
  intros m d x y lo n D R C CX CY X1 X2 Y1 Y2 L N. assert (Q : forall z, d * (lo + 1) <= z -> z < d * (lo + n - 2) -> lo < Z.quot z d /\ Z.quot z d + 1 < lo + n). { intros z Z1 Z2. destruct (Z_le_gt_dec 0 z) as [P|P]; [destruct (quot_pos d z D P)|destruct (quot_neg d z D ltac:(lia))]; split; nia. }
  destruct (Q x X1 X2), (Q y Y1 Y2). apply mix_replicate; assumption.
Qed.
Print Assumptions C121_bilinear.
(* at a pixel, its value; beyond the last row or column, that of the border pixel *)
Theorem C121_pixel : forall m d r c, 0 < d -> 0 < rows m -> 0 < cols m -> sub_pix m Replicate d (d * c) (d * r) = Some (extended (rows m) (cols m) (px m) r c) /\ (0 <= r < rows m -> 0 <= c < cols m -> sub_pix m Replicate d (d * c) (d * r) = Some (px m r c)).
Proof.
  intros m d r c D R C. assert (A : sub_pix m Replicate d (d * c) (d * r) = Some (extended (rows m) (cols m) (px m) r c)).
  { unfold sub_pix, mix. rewrite (Z.mul_comm d c), (Z.mul_comm d r), !Z.quot_mul by lia. rewrite !replicate_clamp by assumption. rewrite !at_in by lia. cbv zeta. cbn [option_map]. rewrite !Z.sub_diag. f_equal. unfold extended.
    match goal with |- round ?t _ = ?v => replace t with (v * (d * d)) by ring; assert (Q : 0 < d * d) by nia; assert (Y := nearest_between _ _ _ v v Q (round_nearest (v * (d * d)) (d * d) Q) ltac:(lia)); lia end. }
  split; [exact A|]. intros Hr Hc. rewrite A. unfold extended. replace (Z.max 0 (Z.min (rows m - 1) r)) with r by lia. replace (Z.max 0 (Z.min (cols m - 1) c)) with c by lia. reflexivity.
Qed.
Print Assumptions C121_pixel.
(* integral results are nearest to the interpolated value *)
Theorem C121_round : forall m b d x y v, 0 < d -> mix m b d x y = Some v -> exists k, sub_pix m b d x y = Some k /\ nearest v (d * d) k.
Proof. intros m b d x y v D E. exists (round v (d * d)). unfold sub_pix. rewrite E. split; [reflexivity|]. apply round_nearest. nia. Qed.
Print Assumptions C121_round.
(* and between the least and the greatest pixel, so that they fit the type of the pixels, for each border for which there is a value *)
Theorem C121_between : forall m b d x y k lo hi, 0 < d -> 0 <= x -> 0 <= y -> (forall r c, 0 <= r < rows m -> 0 <= c < cols m -> lo <= px m r c <= hi) -> sub_pix m b d x y = Some k -> lo <= k <= hi.
Proof.
  intros m b d x y k lo hi D X Y P E. unfold sub_pix in E. destruct (mix m b d x y) as [v|] eqn:V; [|discriminate]. injection E as <-. destruct (quot_pos d x D X), (quot_pos d y D Y).
  apply (nearest_between v (d * d)); [nia|apply round_nearest; nia|]. apply (mix_between m b d x y); [exact D|lia|lia|exact P|exact V].
Qed.
Print Assumptions C121_between.
(* but between -1 and 0 it extrapolates: for pixels 0 and 255, the value at -1/2 is -127.5, which as an integer is no byte *)
Theorem C121_before_refuted : exists m, (forall r c, 0 <= r < rows m -> 0 <= c < cols m -> 0 <= px m r c <= 255) /\ mix m Replicate 2 (-1) 0 = Some (- 510) /\ sub_pix m Replicate 2 (-1) 0 = Some (-128) /\ bilinear (extended (rows m) (cols m) (px m)) (-2) 6 2 (-1) 0 = 0.
Proof. exists {| rows := 1; cols := 2; px := fun _ c => if c =? 0 then 0 else 255 |}. split; [cbn [px rows cols]; intros r c _ _; destruct (c =? 0); lia|]. repeat split; reflexivity. Qed.
Print Assumptions C121_before_refuted.
(* however fine the steps, the value jumps there by almost the difference of the first two pixels *)
Theorem C121_jump_refuted : exists m, forall d, 1 < d -> mix m Replicate d (- d) 0 = Some 0 /\ mix m Replicate d (- d + 1) 0 = Some (- 255 * (d - 1) * d).
Proof.
  exists {| rows := 1; cols := 2; px := fun _ c => if c =? 0 then 0 else 255 |}. intros d D. unfold mix.
  replace (Z.quot (- d) d) with (-1) by (rewrite Z.quot_opp_l by lia; rewrite Z.quot_same by lia; reflexivity). replace (Z.quot (- d + 1) d) with 0 by (replace (- d + 1) with (- (d - 1)) by lia; rewrite Z.quot_opp_l by lia; rewrite Z.quot_small by lia; reflexivity). rewrite Z.quot_0_l by lia. change (-1 + 1) with 0. change (0 + 1) with 1.
  split; (match goal with |- ?t = _ => let u := eval cbv -[Z.mul Z.add Z.sub Z.opp interpolate at_] in t in change t with u end; repeat match goal with |- context [interpolate ?b ?p ?l] => let v := eval vm_compute in (interpolate b p l) in change (interpolate b p l) with v end; repeat match goal with |- context [at_ ?a ?b ?c] => let v := eval vm_compute in (at_ a b c) in change (at_ a b c) with v end; cbv iota; f_equal; ring).
Qed.
Print Assumptions C121_jump_refuted.

(* all borders: only pixels of the image are read before the last row and column *)
Theorem C121_inside : forall m b d x y, 0 < d -> 0 <= x < d * (cols m - 1) -> 0 <= y < d * (rows m - 1) -> exists v, mix m b d x y = Some v /\ mix m Replicate d x y = Some v.
Proof.
  intros m b d x y D X Y. destruct (quot_pos d x D ltac:(lia)) as [A1 A2], (quot_pos d y D ltac:(lia)) as [B1 B2]. assert (A3 : Z.quot x d + 1 < cols m) by nia. assert (B3 : Z.quot y d + 1 < rows m) by nia.
  assert (I : forall b p len, 0 <= p < len -> interpolate b p len = p). { intros b' p len H. unfold interpolate. destruct (Z.leb_spec 0 p), (Z.ltb_spec p len); try lia. reflexivity. }
  unfold mix. rewrite !I by lia. rewrite !at_in by lia. cbv zeta. eexists. split; reflexivity.
Qed.
Print Assumptions C121_inside.
(* the default border and BORDER_WRAP have a value everywhere *)
Theorem C121_everywhere : forall m d x y, 0 < rows m -> 0 < cols m -> (exists v, mix m Replicate d x y = Some v) /\ exists v, mix m Wrap d x y = Some v.
Proof.
  intros m d x y R C. split; [apply mix_replicate_some; assumption|]. assert (I : forall p len, 0 < len -> 0 <= interpolate Wrap p len < len). { intros p len H. unfold interpolate. destruct (Z.leb_spec 0 p), (Z.ltb_spec p len); cbn [andb]; try lia; apply Z.mod_pos_bound; lia. }
  unfold mix. rewrite !at_in by (apply I; assumption). cbv zeta. eexists. reflexivity.
Qed.
Print Assumptions C121_everywhere.
(* BORDER_CONSTANT does not: it reads column -1 even for pixels of the last column *)
Theorem C121_constant_refuted : forall m d r c, 0 < d -> 0 <= r < rows m -> 0 <= c < cols m -> c = cols m - 1 \/ r = rows m - 1 -> mix m Constant d (d * c) (d * r) = None.
Proof.
  intros m d r c D R C H. unfold mix. rewrite (Z.mul_comm d c), (Z.mul_comm d r), !Z.quot_mul by lia. cbv zeta. assert (N : forall p len, ~ 0 <= p < len -> interpolate Constant p len = -1). { intros p len X. unfold interpolate. destruct (Z.leb_spec 0 p), (Z.ltb_spec p len); try lia; reflexivity. }
  assert (O : forall q, at_ m q (-1) = None). { intros q. unfold at_. rewrite andb_false_r. reflexivity. } assert (O' : forall q, at_ m (-1) q = None) by (intros q; reflexivity).
  destruct H as [H|H].
  - rewrite (N (c + 1)) by lia. rewrite !O. repeat match goal with |- context [at_ ?a ?b ?e] => destruct (at_ a b e) end; reflexivity.
  - rewrite (N (r + 1)) by lia. rewrite !O'. repeat match goal with |- context [at_ ?a ?b ?e] => destruct (at_ a b e) end; reflexivity.
Qed.
Print Assumptions C121_constant_refuted.

(* computeTemporalAbsDiff: none where the flow leads to a pixel of the same value *)
Theorem C121_diff : forall old new d fx fy r c r' c', 0 < d -> 0 < rows new -> 0 < cols new -> c * d + fx r c = d * c' -> r * d + fy r c = d * r' -> temporal_diff old new d fx fy r c = Some (d * d * Z.abs (px old r c - extended (rows new) (cols new) (px new) r' c')).
Proof.
  intros old new d fx fy r c r' c' D R C EX EY. unfold temporal_diff. rewrite EX, EY. unfold mix. rewrite (Z.mul_comm d c'), (Z.mul_comm d r'), !Z.quot_mul by lia. rewrite !replicate_clamp by assumption. rewrite !at_in by lia. cbv zeta. cbn [option_map]. rewrite !Z.sub_diag. f_equal. unfold extended. rewrite <- (Z.abs_eq (d * d)) at 2 by nia. rewrite <- Z.abs_mul. f_equal. ring.
Qed.
Print Assumptions C121_diff.
(* and below 256 if it does not lead to the places before the first row or column *)
Theorem C121_diff_bound : forall old new d fx fy r c v, 0 < d -> 0 <= r < rows old -> 0 <= c < cols old -> rows new = rows old -> cols new = cols old -> (forall a b, 0 <= px old a b <= 255 /\ 0 <= px new a b <= 255) -> 0 <= c * d + fx r c -> 0 <= r * d + fy r c ->
  temporal_diff old new d fx fy r c = Some v -> 0 <= v <= 255 * (d * d).
Proof.
  intros old new d fx fy r c v D R C ER EC P X Y E. unfold temporal_diff in E. destruct (mix new _ _ _ _) as [w|] eqn:W; [|discriminate]. injection E as <-. destruct (quot_pos d _ D X), (quot_pos d _ D Y). assert (B := mix_between new Replicate d (c * d + fx r c) (r * d + fy r c) w 0 255 D ltac:(lia) ltac:(lia) (fun a b _ _ => proj2 (P a b)) W). destruct (P r c) as [O _]. assert (0 <= px old r c * (d * d) <= 255 * (d * d)) by nia. lia.
Qed.
Print Assumptions C121_diff_bound.
(* where it does, bytes may differ by more than a byte *)
Theorem C121_diff_refuted : exists old new fx, (forall a b, 0 <= px old a b <= 255 /\ 0 <= px new a b <= 255) /\ temporal_diff old new 4 fx (fun _ _ => 0) 0 0 = Some (446 * (4 * 4) + 4).
Proof.
  exists {| rows := 1; cols := 2; px := fun _ _ => 255 |}, {| rows := 1; cols := 2; px := fun _ c => if c =? 0 then 0 else 255 |}, (fun _ _ => -3). split; [|reflexivity]. intros a b. cbn [px]. destruct (b =? 0); lia.
Qed.
Print Assumptions C121_diff_refuted.

Example C121_ex : let m := {| rows := 2; cols := 2; px := fun r c => 10 * r + 100 * c |} in map (fun x => sub_pix m Replicate 4 x 2) [0; 1; 2; 4; 9; -4] = [Some 5; Some 30; Some 55; Some 105; Some 105; Some 5].
Proof. reflexivity. Qed.
