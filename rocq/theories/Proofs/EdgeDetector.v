From Coq Require Import ZArith List Bool Lia.
From Verif Require Import Lib.Grid Model.EdgeDetector Spec.EdgeDetector Proofs.EdgeHysteresis Proofs.EdgeGradient.
Import ListNotations.
Open Scope Z_scope.

Section Mask.
Variables (g : nat -> Z -> Z -> grad) (H W : Z) (L : nat) (low high : Z).
Hypothesis HL : (0 < L)%nat.
Hypothesis mags : forall l r c, 0 <= mag3 (g l r c) <= 127.
Hypothesis border : forall r c, r = 0 \/ r = H - 1 -> mag3 (g 0%nat r c) = 0.
Let f := accumulate g H W L.
Lemma mag_nonneg r c : 0 <= mag_at f H W r c.
Proof.
  unfold mag_at. destruct ((0 <=? r) && (r <? H) && ((0 <=? c) && (c <? W))) eqn:E; [| lia ]. rewrite !andb_true_iff, !Z.leb_le, !Z.ltb_lt in E.
  destruct (accumulated_parts g H W L r c HL ltac:(lia) ltac:(lia) ltac:(intros; apply mags)) as [[(l & _ & El) _] _]. unfold mag3 in El at 2. fold f in El. rewrite <- El. apply mags.
Qed.
Lemma mag_border r c : r = 0 \/ r = H - 1 -> mag_at f H W r c = 0.
Proof.
  intro B. pose proof (mag_nonneg r c) as N. unfold mag_at in *. destruct ((0 <=? r) && (r <? H) && ((0 <=? c) && (c <? W))) eqn:E; [| lia ].
  rewrite !andb_true_iff, !Z.leb_le, !Z.ltb_lt in E.
  destruct (accumulated_parts g H W L r c HL ltac:(lia) ltac:(lia) ltac:(intros; apply mags)) as [[_ Low] _]. specialize (Low 0%nat HL). cbn beta in Low.
  change (2 ^ Z.of_nat 0) with 1 in Low. rewrite !Z.div_1_r, border in Low by auto. unfold mag3 in Low. fold f in Low. lia.
Qed.
Lemma locmax_zero (m : Z -> Z -> Z) r c dr dc : (forall y x, 0 <= m y x) -> m r c = 0 -> locmax m r c dr dc = false.
Proof. intros N E. unfold locmax. rewrite E. specialize (N (r - dr) (c - dc)). destruct (Z.ltb_spec (m (r - dr) (c - dc)) 0); [ lia | reflexivity ]. Qed.
Lemma candidate_zero r c : mag_at f H W r c = 0 -> candidate f H W low r c = false.
Proof.
  intro E. unfold candidate. destruct (f r c) as [[gx gy] m]. apply andb_false_iff. right. unfold is_max.
  destruct (sector_of gx gy); rewrite ?locmax_zero; auto; apply mag_nonneg.
Qed.
Lemma candidate_border r c : r = 0 \/ r = H - 1 -> candidate f H W low r c = false.
Proof. intro B. now apply candidate_zero, mag_border. Qed.

Definition cand_at (x : Z * Z) : Prop := inside_image H W x /\ candidate f H W low (fst x) (snd x) = true.
Definition strong_at (x : Z * Z) : Prop := high <= mag_at f H W (fst x) (snd x).
Lemma edge_mono (C1 C2 S1 S2 : Z * Z -> Prop) x : (forall p, C1 p -> C2 p) -> (forall p, S1 p -> S2 p) -> edge C1 S1 x -> edge C2 S2 x.
Proof. intros M N E. induction E; [ apply edge_strong; auto | eapply edge_next; eauto ]. Qed.
Theorem mask_ok stale oldcap : 0 <= H -> 0 <= W ->
  exists fuel0 out, (forall fuel, (fuel0 <= fuel)%nat -> edge_mask g H W L low high fuel stale oldcap = Some out) /\
    (forall i j, 0 <= i < H - 2 -> 0 <= j < W -> (out i j = 255 <-> edge cand_at strong_at (i + 2, j)) /\ (out i j = 0 \/ out i j = 255)) /\
    (forall i j, 0 <= i < H -> H - 2 <= i -> out i j = (- Z.shiftr (stale (i + 2) (j + 2)) 1) mod 256).
Proof.
  intros H0 W0.
  destruct (hysteresis_result H W (candidate f H W low) (fun r c => high <=? mag_at f H W r c) W0
              (fun c => candidate_border 0 c (or_introl eq_refl)) (fun c => candidate_border (H - 1) c (or_intror eq_refl)) stale oldcap H0)
    as (n & s & Run & Res & Vals & Fr).
  exists n, (edge_out s). split. { intros fuel F. unfold edge_mask, edge_state. fold f. now rewrite (Run fuel F). } split.
  - intros i j Bi Bj. assert (I : inside_image H W (i + 2, j)) by (split; cbn [fst snd]; lia).
    specialize (Res _ I). specialize (Vals _ I). unfold val in *. cbn [fst snd] in *. unfold edge_out.
    assert (Eq : edge cand_at strong_at (i + 2, j) <-> edge (is_cand H W (candidate f H W low)) (is_strong (fun r c => high <=? mag_at f H W r c)) (i + 2, j)).
    { split; apply edge_mono; try (intros p K; exact K); intros p; unfold strong_at, is_strong; rewrite Z.leb_le; auto. }
    rewrite Eq, <- Res. destruct Vals as [V|[V|V]]; rewrite V.
    + change ((- Z.shiftr 0 1) mod 256) with 0. lia.
    + change ((- Z.shiftr 1 1) mod 256) with 0. lia.
    + change ((- Z.shiftr 2 1) mod 256) with 255. lia.
  - intros i j Bi Li. unfold edge_out. rewrite Fr by lia. unfold init. cbn [mp].
    replace (0 <=? i + 2) with true by (symmetry; apply Z.leb_le; lia). replace (i + 2 <? 2) with false by (symmetry; apply Z.ltb_ge; lia).
    replace (H + 2 <=? i + 2) with false by (symmetry; apply Z.leb_gt; lia). reflexivity.
Qed.
(** what a candidate is: local maximum of the magnitude along the vertical, or along one of the diagonals, never along the horizontal *)
Theorem candidate_directions r c : 0 <= r < H -> 0 <= c < W -> candidate f H W low r c = true ->
  low <= mag3 (f r c) /\ exists dc, -1 <= dc <= 1 /\ (forall k, k = 1 \/ k = 2 -> mag_at f H W (r - k) (c - k * dc) < mag3 (f r c) /\ mag_at f H W (r + k) (c + k * dc) <= mag3 (f r c)).
Proof.
  intros R C K. pose proof (accumulated_sector g H W L r c HL R C) as Sec. fold f in Sec. cbn zeta in Sec.
  assert (Em : mag_at f H W r c = mag3 (f r c)).
  { unfold mag_at. replace ((0 <=? r) && (r <? H) && ((0 <=? c) && (c <? W))) with true; auto. symmetry. rewrite !andb_true_iff, !Z.leb_le, !Z.ltb_lt. lia. }
  unfold candidate in K. unfold gx3, gy3 in Sec. rewrite <- Em. destruct (f r c) as [[gx gy] m]. cbn [fst snd] in Sec. apply andb_true_iff in K. destruct K as [K1 K2]. apply Z.leb_le in K1.
  split; auto. rewrite Sec in K2.
  assert (Lm : forall dc, locmax (mag_at f H W) r c 1 dc = true -> forall k, k = 1 \/ k = 2 -> mag_at f H W (r - k) (c - k * dc) < mag_at f H W r c /\ mag_at f H W (r + k) (c + k * dc) <= mag_at f H W r c).
  { intros dc E k Hk. unfold locmax in E. rewrite !andb_true_iff, !Z.ltb_lt, !Z.leb_le in E. destruct E as [[E1 E2] [E3 E4]]. destruct Hk as [-> | -> ]; [ rewrite Z.mul_1_l; auto | auto ]. }
  destruct (gy =? 0).
  - cbn [is_max diag_dir] in K2. apply orb_true_iff in K2. destruct K2 as [K2|K2]; [ exists (-1) | exists 1 ]; (split; [ lia |]); now apply Lm.
  - exists 0. split; [ lia |]. now apply Lm.
Qed.
End Mask.

(** ** the border pixels: all sixteen looked-up values are the pixel itself *)
From Verif Require Import Model.Bits Model.Distances Model.Lbsp Spec.Distances Proofs.Distances.
Lemma border_descriptor x t : 0 <= x < 256 -> 0 <= t -> thr_scalar (repeat x 16) x t = Some 0.
Proof.
  intros X T. unfold thr_scalar.
  assert (G : forall l : list (nat * Z), (forall p, In p l -> snd p = x) ->
    fold_left (fun nDesc '(n, v) => bind nDesc (fun d => bind (L1dist 8 v x) (fun dist => Some (Z.lor d (Z.shiftl (if t <? dist then 1 else 0) (Z.of_nat n)) mod 2^16)))) l (Some 0) = Some 0).
  { induction l as [|[n v] l IH]; intro A; [ reflexivity |]. cbn [fold_left]. etransitivity; [| apply IH; intros p Ip; apply A; now right ]. f_equal.
    pose proof (A _ (or_introl eq_refl)) as Ev. cbn [snd] in Ev. subst v. cbn [bind]. rewrite L1dist_exact by (first [ now left | left; unfold in_u; change (2 ^ 8) with 256; lia ]).
    rewrite Z.sub_diag. cbn [bind Z.abs]. replace (t <? 0) with false by (symmetry; apply Z.ltb_ge; lia). rewrite Z.shiftl_0_l. reflexivity. }
  apply G. intros [n v] I. apply in_combine_r in I. cbn [snd]. now apply repeat_spec in I.
Qed.
Lemma border_gradient n : gradient (repeat 0%N n) 0%N = Some (0, 0, 0%N).
Proof.
  assert (P : gradient_pick (repeat 0%N n) 0%N = Some (0%N, 0%N)).
  { unfold gradient_pick. change (match popcount 2 0%N with Some m => Some (0%N, m) | None => None end) with (Some (0%N, 0%N)). induction n as [|n IH]; [ reflexivity |]. cbn [repeat fold_left]. exact IH. }
  unfold gradient. rewrite P. reflexivity.
Qed.
