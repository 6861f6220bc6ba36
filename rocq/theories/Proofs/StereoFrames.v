(* States that frames reach, the tables of the code, and disparity ranges that are too long for them. *)
From Coq Require Import ZArith List Bool Lia.
From Verif Require Import Lib.Grid Model.FusionTerms Spec.FusionTerms Model.StereoMoves Spec.StereoMoves Proofs.StereoMoves Proofs.StereoRun Proofs.StereoEnergy.
Import ListNotations.
Local Open Scope Z_scope.

Lemma reached_good s st : sound s -> reached s st -> good s st.
Proof.
  intros S0 R. induction R as [warped st W E|st alpha x st' _ G Ha E].
  - destruct (reset_ok s S0 warped W) as (st1 & E1 & G & _). rewrite E in E1. injection E1 as <-. exact G.
  - destruct (move_ok s S0 st alpha x G Ha) as (st1 & E1 & G1 & _). rewrite E in E1. injection E1 as <-. exact G1.
Qed.
Lemma reset_started s warped st : sound s -> warped_in_range s warped -> reset s warped = Some st -> started s warped (lab st).
Proof.
  intros S0 W E. destruct (reset_ok s S0 warped W) as (st1 & E1 & _ & L). rewrite E in E1. injection E1 as <-. intros i Ii. rewrite L, first_labels_is.
  assert (X : existsb (Z.eqb i) (pixels s) = true) by (apply existsb_exists; exists i; split; [ exact Ii | apply Z.eqb_refl ]). rewrite X. cbn [andb]. pose proof Ii as Ii'. apply (in_pixels s S0) in Ii'. destruct Ii' as [_ Ei].
  assert (B : best (unary s i) (nlabels s) (wta (unary s i) (nlabels s))) by (apply wta_spec; unfold nlabels; destruct S0 as (_ & _ & _ & N & _); lia).
  unfold start. destruct warped as [w|]; [ rewrite Ei; destruct (w i =? dontcare s); [ exact B | reflexivity ] | rewrite Z.eqb_refl; exact B ].
Qed.

(* tables *)
Lemma mean_fair add n : 1 <= n -> 0 <= penalty add n -> - penalty add n <= n * approx_rem add n.
Proof.
  intros H P. unfold approx_rem. destruct (n =? 0) eqn:E; [ lia |]. rewrite sums_penalty by lia. set (p := penalty add n) in *. destruct (Z_le_gt_dec 0 (n - 2 * p)) as [D|D].
  - assert (0 <= Z.quot (n - 2 * p) (2 * n)) by (apply Z.quot_pos; lia). nia.
  - assert (Q : Z.quot (n - 2 * p) (2 * n) = - ((2 * p - n) / (2 * n))) by (replace (n - 2 * p) with (- (2 * p - n)) by lia; rewrite Z.quot_opp_l by lia; rewrite Z.quot_div_nonneg by lia; reflexivity).
    rewrite Q. assert (2 * n * ((2 * p - n) / (2 * n)) <= 2 * p - n) by (apply Z.mul_div_le; lia). lia.
Qed.
Lemma fair_mean add : 0 <= add 0 -> (forall i j, 0 <= i <= j -> j < 200 -> add i <= add j) -> fair_tables add (approx_rem add).
Proof.
  intros A M. split; [ exact A |]. split; [ exact M |]. intros n Hn. apply mean_fair; [ lia |]. unfold penalty. apply FusionTerms.total_nonneg. intros v I. apply in_map_iff in I. destruct I as (i & <- & I). apply in_zrange in I. specialize (M 0 i ltac:(lia) ltac:(lia)). lia.
Qed.
Lemma real_add_fair : fair_tables real_add (approx_rem real_add).
Proof.
  apply fair_mean; [ cbn; lia |]. intros i j H _. unfold real_add. destruct (i =? 0) eqn:Ei; destruct (j =? 0) eqn:Ej; try lia; rewrite ?Z.quot_div_nonneg by lia.
  - apply Z.div_pos; lia.
  - assert (I1 : (i + 2) * (1200 * i / (i + 2)) <= 1200 * i) by (apply Z.mul_div_le; lia). assert (I2 : 1200 * i / (i + 2) <= 1200 * i / (i + 2)) by lia. apply Z.div_le_lower_bound; [ lia |]. set (q := 1200 * i / (i + 2)) in *. assert (q <= 1200) by (assert (q * (i + 2) < 1200 * (i + 2)) by lia; nia). assert ((j + 2) * q <= (i + 2) * q + (j - i) * 1200) by nia. lia.
Qed.

(* with more than 199 disparities, that many pixels can be matched to one column *)
Definition long_row : setup := Setup 2 300 0 253 false (fun i => i <? 300) (fun i l => if l =? i then 0 else 1) (fun _ => []) real_add (approx_rem real_add).
Lemma long_sound : sound long_row.
Proof. unfold sound. cbn [rows cols mind nreal cliques long_row]. repeat split; try lia. intros i c []. Qed.
Lemma wta_unique u n v : 0 <= v < n -> (forall l, 0 <= l < n -> l <> v -> u v < u l) -> wta u n = v.
Proof. intros H U. destruct (wta_spec u n ltac:(lia)) as (R & M & _). destruct (Z.eq_dec (wta u n) v) as [E|N]; [ exact E |]. specialize (M v H). specialize (U _ R N). lia. Qed.
Lemma long_unary i l : unary long_row i l = if l =? i then 0 else 1. Proof. reflexivity. Qed.
Lemma long_nlabels : nlabels long_row = 255. Proof. reflexivity. Qed.
Lemma long_label i : 0 <= i < 255 -> wta (unary long_row i) (nlabels long_row) = i.
Proof.
  intro H. rewrite long_nlabels. apply wta_unique; [ exact H |]. intros l Hl N. rewrite !long_unary, Z.eqb_refl. replace (l =? i) with false by lia. lia.
Qed.
Lemma long_matched st : reset long_row None = Some st -> matched long_row (lab st) 0 0 = 253.
Proof.
  intro E. destruct (reset_ok long_row long_sound None I) as (st1 & E1 & _ & L). rewrite E in E1. injection E1 as <-.
  assert (Li : forall x, 0 <= x < 300 -> lab st x = if x <? 255 then x else wta (unary long_row x) (nlabels long_row)).
  { intros x Hx. rewrite L, first_labels_is. assert (X : existsb (Z.eqb x) (pixels long_row) = true) by (apply existsb_exists; exists x; split; [| apply Z.eqb_refl ]; apply (in_pixels long_row long_sound); cbn [rows cols inside long_row]; lia). rewrite X. unfold start. rewrite Z.eqb_refl. cbn [andb]. destruct (x <? 255) eqn:D; [ apply long_label; lia | reflexivity ]. }
  unfold matched. rewrite (count_ext_in _ (fun x => x <? 253)).
  - reflexivity.
  - intros x Ix. apply in_zrange in Ix. change (cols long_row) with 300 in Ix. apply eq_iff_eq_true. rewrite (hits_real long_row long_sound). unfold at_. change (0 * cols long_row + x) with x. rewrite Li by lia. cbn [inside nreal long_row]. unfold target. cbn [second mind long_row]. destruct (x <? 255) eqn:D; [ split; intro; lia |]. split; [ intros (_ & V & T); lia | lia ].
Qed.
Lemma ofold_stuck {A B} (f : A -> B -> option A) b l : (forall a, f a b = None) -> In b l -> forall a, ofold f l a = None.
Proof. intros H I. induction l as [|c l IH]; intro a; [ destruct I |]. cbn [ofold]. destruct I as [->|I]; [ now rewrite H |]. destruct (f a c); [ now apply IH | reflexivity ]. Qed.
Lemma omap_stuck {A B} (f : A -> option B) a l : f a = None -> In a l -> omap f l = None.
Proof. intros H I. induction l as [|c l IH]; [ destruct I |]. cbn [omap]. destruct I as [->|I]; [ now rewrite H |]. rewrite (IH I). destruct (f c); reflexivity. Qed.
Lemma long_stuck st : reset long_row None = Some st -> value long_row st = None /\ move_terms long_row st 1 = None.
Proof.
  intro E. pose proof (reached_good long_row st long_sound (reached_reset _ None st I E)) as G. pose proof (long_matched st E) as M. pose proof (good_counted long_row st G 0 0) as C. cbn [rows long_row] in C. rewrite M in C. specialize (C ltac:(lia)). assert (R : reachable_column long_row 0) by (unfold reachable_column, maxd; cbn [second mind nreal cols long_row]; unfold disp_step; lia). specialize (C R).
  split.
  - unfold value, total_assoc_cost. rewrite (ofold_stuck _ (0, 0)); [ reflexivity | |].
    + intro a. cbn [fst snd]. rewrite C. reflexivity.
    + apply in_grid. unfold maxd, disp_step. cbn. lia.
  - unfold move_terms. rewrite (omap_stuck _ (0, 0)); [ reflexivity | |].
    + cbn [fst snd]. assert (L0 : lab st 0 = 0). { destruct (reset_ok long_row long_sound None I) as (st1 & E1 & _ & L). rewrite E in E1. injection E1 as <-. rewrite L, first_labels_is. assert (X : existsb (Z.eqb 0) (pixels long_row) = true) by (apply existsb_exists; exists 0; split; [| reflexivity ]; apply (in_pixels long_row long_sound); cbn [rows cols inside long_row]; lia). rewrite X. unfold start. rewrite Z.eqb_refl. cbn [andb]. apply long_label. lia. }
      rewrite L0. unfold unary_move_cost. change (0 =? 1) with false. cbv iota. change ((0 <? nlabels long_row) && (1 <? nlabels long_row)) with true. cbn [ensure]. change (row_of long_row 0) with 0. change (col_of long_row 0) with 0. unfold remove_cost. change ((0 <=? 0) && (0 <? rows long_row) && (0 <=? 0) && (0 <? cols long_row)) with true. cbn [ensure]. change (0 <? dontcare long_row) with true. cbv iota. change (offset_col long_row 0 0) with (Some 0). cbn [obind]. change (assoc_range long_row 0 0) with true. cbn [ensure]. rewrite C. cbn [obind]. change (0 <? 253) with true. cbn [ensure]. change (lookup (remt long_row) 253) with (@None Z). reflexivity.
    + apply (numbered_in long_row). split; [ lia |]. unfold pixels. unfold zrange. change (Z.to_nat (rows long_row * cols long_row)) with 600%nat. rewrite zseq_S. cbn [filter]. change (inside long_row 0) with true. reflexivity.
Qed.
