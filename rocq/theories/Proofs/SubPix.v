From Coq Require Import ZArith List Bool Lia.
From Verif Require Import Lib.Grid Model.SubPix Spec.SubPix.
Import ListNotations.
Open Scope Z_scope.

Lemma total_zero f l : (forall i, In i l -> f i = 0) -> total f l = 0.
Proof. induction l as [|a l IH]; intros H; cbn [total fold_right]; [reflexivity|]. rewrite (H a) by (left; reflexivity). apply IH. intros i I. apply H. right. exact I. Qed.
Lemma total_app f a b : total f (a ++ b) = total f a + total f b.
Proof. induction a as [|x a IH]; cbn [app total fold_right]; [reflexivity|]. unfold total in *. rewrite IH. lia. Qed.
(* only the two pixels around a place have weight *)
Lemma total_near d x k lo n f : 0 < d -> d * k <= x <= d * k + d -> lo <= k -> k + 1 < lo + n -> total (fun i => near d x i * f i) (zrange lo n) = (d * k + d - x) * f k + (x - d * k) * f (k + 1).
Proof.
  intros D K L N. unfold zrange. replace (Z.to_nat n) with (Z.to_nat (k - lo) + (2 + Z.to_nat (lo + n - k - 2)))%nat by lia. rewrite !zseq_app, !total_app. rewrite (total_zero _ (zseq lo _)), (total_zero _ (zseq (lo + _ + _) _)).
  - replace (lo + Z.of_nat (Z.to_nat (k - lo))) with k by lia. change (zseq k 2) with [k + Z.of_nat 0; k + Z.of_nat 1]. cbn [total fold_right]. change (Z.of_nat 0) with 0. change (Z.of_nat 1) with 1. replace (k + 0) with k by lia. unfold near.
    replace (d * (k + 1)) with (d * k + d) by ring. replace (Z.max 0 (d - Z.abs (x - d * k))) with (d * k + d - x) by lia. replace (Z.max 0 (d - Z.abs (x - (d * k + d)))) with (x - d * k) by lia. ring.
  - intros i I. apply in_zseq in I. unfold near. replace (Z.max 0 (d - Z.abs (x - d * i))) with 0; [reflexivity|]. assert (d * (k + 2) <= d * i) by (apply Z.mul_le_mono_nonneg_l; lia). lia.
  - intros i I. apply in_zseq in I. unfold near. replace (Z.max 0 (d - Z.abs (x - d * i))) with 0; [reflexivity|]. assert (d * i <= d * (k - 1)) by (apply Z.mul_le_mono_nonneg_l; lia). lia.
Qed.
Lemma bilinear_near im lo n d x y kx ky : 0 < d -> d * kx <= x <= d * kx + d -> d * ky <= y <= d * ky + d -> lo <= kx -> kx + 1 < lo + n -> lo <= ky -> ky + 1 < lo + n ->
  bilinear im lo n d x y = (d * ky + d - y) * ((d * kx + d - x) * im ky kx + (x - d * kx) * im ky (kx + 1)) + (y - d * ky) * ((d * kx + d - x) * im (ky + 1) kx + (x - d * kx) * im (ky + 1) (kx + 1)).
Proof.
  intros D KX KY A B C E. unfold bilinear. rewrite (total_near d y ky lo n (fun r => total (fun c => near d x c * im r c) (zrange lo n)) D KY C E). rewrite (total_near d x kx lo n (im ky) D KX A B), (total_near d x kx lo n (im (ky + 1)) D KX A B). reflexivity.
Qed.

(* places that truncation treats well: not just before the first pixel *)
Definition clear (d x : Z) : Prop := x <= - d \/ 0 <= x.
Lemma replicate_clamp p len : 0 < len -> interpolate Replicate p len = Z.max 0 (Z.min (len - 1) p).
Proof. intros L. unfold interpolate. destruct (Z.leb_spec 0 p), (Z.ltb_spec p len), (Z.ltb_spec p 0); cbn [andb]; lia. Qed.
Lemma at_in m r c : 0 <= r < rows m -> 0 <= c < cols m -> at_ m r c = Some (px m r c).
Proof. intros R C. unfold at_. destruct (Z.leb_spec 0 r), (Z.ltb_spec r (rows m)), (Z.leb_spec 0 c), (Z.ltb_spec c (cols m)); try lia. reflexivity. Qed.
Lemma quot_pos d x : 0 < d -> 0 <= x -> d * Z.quot x d <= x < d * Z.quot x d + d /\ 0 <= Z.quot x d.
Proof. intros D X. rewrite Z.quot_div_nonneg by lia. assert (H := Z.mul_div_le x d D). assert (H' := Z.mul_succ_div_gt x d D). assert (P := Z.div_pos x d X D). lia. Qed.
Lemma quot_neg d x : 0 < d -> x <= 0 -> d * Z.quot x d - d < x <= d * Z.quot x d /\ Z.quot x d <= 0.
Proof. intros D X. assert (E : Z.quot x d = - Z.quot (- x) d) by (rewrite Z.quot_opp_l by lia; lia). destruct (quot_pos d (- x) D ltac:(lia)) as [A B]. rewrite E. lia. Qed.

(* the first of the two pixels around a place *)
Definition cell (d x : Z) : Z := if 0 <=? x then Z.quot x d else Z.quot x d - 1.
Lemma cell_ok d x : 0 < d -> d * cell d x <= x <= d * cell d x + d /\ Z.quot x d - 1 <= cell d x <= Z.quot x d.
Proof. intros D. unfold cell. destruct (Z.leb_spec 0 x) as [X|X]; [destruct (quot_pos d x D X)|destruct (quot_neg d x D ltac:(lia))]; split; try lia. Qed.
(* one direction: the two values read, weighted, are those of the extended line *)
Lemma line d x (g : Z -> Z) : 0 < d -> clear d x -> (forall p, p <= 0 -> g p = g 0) -> g (Z.quot x d) * (d - (x - Z.quot x d * d)) + g (Z.quot x d + 1) * (x - Z.quot x d * d) = (d * cell d x + d - x) * g (cell d x) + (x - d * cell d x) * g (cell d x + 1).
Proof.
  intros D C G. unfold cell. destruct (Z.leb_spec 0 x) as [X|X]; [ring|]. destruct C as [C|C]; [|lia]. destruct (quot_neg d x D ltac:(lia)) as [A B]. assert (Q : Z.quot x d <= -1) by nia. rewrite (G (Z.quot x d)), (G (Z.quot x d + 1)), (G (Z.quot x d - 1)), (G (Z.quot x d - 1 + 1)) by lia. ring.
Qed.
Lemma mix_replicate m d x y lo n : 0 < d -> 0 < rows m -> 0 < cols m -> clear d x -> clear d y -> lo < Z.quot x d -> Z.quot x d + 1 < lo + n -> lo < Z.quot y d -> Z.quot y d + 1 < lo + n ->
  mix m Replicate d x y = Some (bilinear (extended (rows m) (cols m) (px m)) lo n d x y).
Proof.
  intros D R C CX CY A1 A2 A3 A4. unfold mix. rewrite !replicate_clamp by assumption. rewrite !at_in by lia. cbv zeta.
  destruct (cell_ok d x D) as [KX QX], (cell_ok d y D) as [KY QY]. f_equal. rewrite (bilinear_near _ lo n d x y _ _ D KX KY) by lia.
  assert (X : forall r, extended (rows m) (cols m) (px m) r (Z.quot x d) * (d - (x - Z.quot x d * d)) + extended (rows m) (cols m) (px m) r (Z.quot x d + 1) * (x - Z.quot x d * d) = (d * cell d x + d - x) * extended (rows m) (cols m) (px m) r (cell d x) + (x - d * cell d x) * extended (rows m) (cols m) (px m) r (cell d x + 1)).
  { intros r. apply line; [exact D|exact CX|]. intros p P. unfold extended. replace (Z.max 0 (Z.min (cols m - 1) p)) with (Z.max 0 (Z.min (cols m - 1) 0)) by lia. reflexivity. }
  rewrite <- !X. apply (line d y (fun r => extended (rows m) (cols m) (px m) r (Z.quot x d) * (d - (x - Z.quot x d * d)) + extended (rows m) (cols m) (px m) r (Z.quot x d + 1) * (x - Z.quot x d * d)) D CY). intros p P. unfold extended. replace (Z.max 0 (Z.min (rows m - 1) p)) with (Z.max 0 (Z.min (rows m - 1) 0)) by lia. reflexivity.
Qed.

Lemma round_nearest n e : 0 < e -> nearest n e (round n e).
Proof.
  intros E. unfold nearest, round. destruct (Z.leb_spec 0 n) as [N|N].
  - assert (A := Z.mul_div_le (2 * n + e) (2 * e) ltac:(lia)). assert (B := Z.mul_succ_div_gt (2 * n + e) (2 * e) ltac:(lia)). set (q := (2 * n + e) / (2 * e)) in *. nia.
  - assert (A := Z.mul_div_le (2 * - n + e) (2 * e) ltac:(lia)). assert (B := Z.mul_succ_div_gt (2 * - n + e) (2 * e) ltac:(lia)). set (q := (2 * - n + e) / (2 * e)) in *. nia.
Qed.
Lemma nearest_between n e k lo hi : 0 < e -> nearest n e k -> lo * e <= n <= hi * e -> lo <= k <= hi.
Proof. unfold nearest. intros E N B. split; apply Z.nlt_ge; intros L; nia. Qed.
(* weights that are not negative keep the value between the least and the greatest *)
Lemma blend d w a b lo hi : 0 < d -> 0 <= w <= d -> lo <= a <= hi -> lo <= b <= hi -> lo * d <= a * (d - w) + b * w <= hi * d.
Proof. intros D W A B. nia. Qed.
Lemma mix_between m b d x y v lo hi : 0 < d -> 0 <= x - Z.quot x d * d <= d -> 0 <= y - Z.quot y d * d <= d -> (forall r c, 0 <= r < rows m -> 0 <= c < cols m -> lo <= px m r c <= hi) -> mix m b d x y = Some v -> lo * (d * d) <= v <= hi * (d * d).
Proof.
  intros D X Y P E. unfold mix in E. cbv zeta in E.
  assert (A : forall r c p, at_ m r c = Some p -> lo <= p <= hi). { intros r c p. unfold at_. destruct (Z.leb_spec 0 r), (Z.ltb_spec r (rows m)), (Z.leb_spec 0 c), (Z.ltb_spec c (cols m)); cbn [andb]; try discriminate. intros H3; injection H3 as <-. apply P; lia. }
  destruct (at_ m _ _) as [p00|] eqn:E00 in E; [|discriminate]. destruct (at_ m _ _) as [p01|] eqn:E01 in E; [|discriminate]. destruct (at_ m _ _) as [p10|] eqn:E10 in E; [|discriminate]. destruct (at_ m _ _) as [p11|] eqn:E11 in E; [|discriminate]. injection E as <-.
  apply A in E00, E01, E10, E11. assert (B0 := blend d _ p00 p01 lo hi D X E00 E01). assert (B1 := blend d _ p10 p11 lo hi D X E10 E11). rewrite !Z.mul_assoc. apply blend; assumption.
Qed.
Lemma mix_replicate_some m d x y : 0 < rows m -> 0 < cols m -> exists v, mix m Replicate d x y = Some v.
Proof. intros R C. unfold mix. rewrite !replicate_clamp by assumption. rewrite !at_in by lia. cbv zeta. eexists. reflexivity. Qed.
