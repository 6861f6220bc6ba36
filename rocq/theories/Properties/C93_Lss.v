(** C93: local self-similarity descriptors. *)
From Coq Require Import ZArith Reals List Lia Lra.
From Verif Require Import Lib.Grid Model.LogPolar Spec.LogPolar Proofs.LogPolar Model.Lss Spec.Lss Proofs.Lss.
Import ListNotations.
Open Scope Z_scope.

(** whatever the constructor accepts, with a valid log-polar mask (C30), is a configuration the theorems below speak of *)
Theorem C93_configurations : forall cf nR nA, accepted cf = true -> (0 < noise cf)%R -> bins cf = nR * nA ->
  valid_mask (corr cf) nR nA (Mask (lut cf) (first cf) (last cf)) -> good cf.
Proof. exact masks_good. Qed.
Print Assumptions C93_configurations.

(** the dense map: every bin of every pixel is written; where the window fits, it tells how well the patch recurs in that bin, elsewhere it is made from zeros *)
Theorem C93_dense : forall cf im, good cf -> large cf im -> exists m, dense cf im = Some m /\ forall r c, 0 <= r < rows im -> 0 <= c < cols im ->
  exists e, at_pixel cf im m r c e /\ (inner cf im r c -> describes cf im r c e) /\ (~ inner cf im r c -> stored cf (fun _ => 0%R) e).
Proof. exact dense_ok. Qed.
Print Assumptions C93_dense.

(** images smaller than the window (and only these, or images with two channels) are rejected *)
Theorem C93_rejects : forall cf im, dense cf im <> None <-> large cf im.
Proof. exact dense_rejects. Qed.
Print Assumptions C93_rejects.

(** keypoints: one row for each of them, in their order *)
Theorem C93_rows : forall cf im keys, good cf -> large cf im -> keys <> [] ->
  exists m, keyed_rows cf im keys = Some (Some m) /\ forall i k, nth_error keys (Z.to_nat i) = Some k -> 0 <= i -> exists e, at_row cf m i e /\ describes cf im (fst k) (snd k) e.
Proof. exact keyed_rows_ok. Qed.
Print Assumptions C93_rows.

(** a map made for keypoints holds the descriptors of the keypoints and nothing else: the rest of it is never written *)
Theorem C93_unlisted_refuted : forall cf im keys, good cf -> large cf im -> keys <> [] -> (forall k, In k keys -> inner cf im (fst k) (snd k)) ->
  exists m, keyed_map cf im keys = Some (Some m) /\ forall r c, 0 <= r < rows im -> 0 <= c < cols im ->
  (In (r, c) keys -> exists e, at_pixel cf im m r c e /\ describes cf im r c e) /\
  (~ In (r, c) keys -> forall b, 0 <= b < bins cf -> m ((r * cols im + c) * bins cf + b) = None).
Proof. exact keyed_map_ok. Qed.
Print Assumptions C93_unlisted_refuted.

(** the three variants give the same descriptor for a pixel *)
Theorem C93_same : forall cf im keys md mk mr r c i, good cf -> large cf im -> (forall k, In k keys -> inner cf im (fst k) (snd k)) ->
  dense cf im = Some md -> keyed_map cf im keys = Some (Some mk) -> keyed_rows cf im keys = Some (Some mr) -> 0 <= i -> nth_error keys (Z.to_nat i) = Some (r, c) ->
  forall b, 0 <= b < bins cf -> exists v, md ((r * cols im + c) * bins cf + b) = Some v /\ mk ((r * cols im + c) * bins cf + b) = Some v /\ mr (i * bins cf + b) = Some v.
Proof. exact same_everywhere. Qed.
Print Assumptions C93_same.

(** the descriptor of a pixel is unique *)
Theorem C93_unique : forall cf im r c e e', describes cf im r c e -> describes cf im r c e' -> forall b, 0 <= b < bins cf -> e b = e' b.
Proof. exact describes_unique. Qed.
Print Assumptions C93_unique.

(** bins lie in (0,1] before normalization; 1 means that the very same patch is found again in the bin *)
Theorem C93_range : forall cf im r c b v, good cf -> tells cf im r c b v -> (0 < v <= 1)%R /\
  (v = 1%R <-> exists dy dx, covers cf b dy dx /\ forall ch oy ox, 0 <= ch < chans im -> Z.abs oy <= patch cf / 2 -> Z.abs ox <= patch cf / 2 ->
                 px im ch (r + dy + oy) (c + dx + ox) = px im ch (r + oy) (c + ox)).
Proof. intros cf im r c b v G T. split; [ eapply tells_range; [ apply G | exact T ] | now apply tells_one ]. Qed.
Print Assumptions C93_range.

(** normalized descriptors have length one, without exception, and are never further apart than the square root of two *)
Theorem C93_unit : forall cf d e, normalizing cf = true -> 0 < bins cf -> stored cf d e -> norm (bins cf) e = 1%R.
Proof. exact stored_unit. Qed.
Print Assumptions C93_unit.
Theorem C93_distance : forall cf im im' r c r' c' e e', good cf -> normalizing cf = true -> describes cf im r c e -> describes cf im' r' c' e' ->
  (0 <= distance (bins cf) e e' <= sqrt 2)%R.
Proof.
  intros cf im im' r c r' c' e e' G N (d & S & T) (d' & S' & T'). split; [ apply sqrt_pos |].
  assert (B : 0 < bins cf) by apply G. assert (Z0 : (0 < noise cf)%R) by apply G.
  apply unit_distance; [ now apply (stored_unit cf d) | now apply (stored_unit cf d') |].
  intros b Bb. split; [ apply (stored_nonneg cf d e) | apply (stored_nonneg cf d' e') ]; auto; intros k K.
  - destruct (tells_range cf im r c k (d k) Z0 (T k K)). lra.
  - destruct (tells_range cf im' r' c' k (d' k) Z0 (T' k K)). lra.
Qed.
Print Assumptions C93_distance.

(** making all pixels of a channel brighter, or taking the negative, changes nothing *)
Theorem C93_shift : forall cf im im' s k m m', good cf -> large cf im -> chans im' = chans im -> rows im' = rows im -> cols im' = cols im -> (s = 1 \/ s = -1) ->
  (forall ch y x, px im' ch y x = s * px im ch y x + k ch) -> dense cf im = Some m -> dense cf im' = Some m' ->
  forall r c b, 0 <= r < rows im -> 0 <= c < cols im -> 0 <= b < bins cf -> m' ((r * cols im + c) * bins cf + b) = m ((r * cols im + c) * bins cf + b).
Proof. exact dense_shift. Qed.
Print Assumptions C93_shift.

(** the descriptors of the border cannot be told from others: in an image without contrast all are the same *)
Theorem C93_border_refuted : forall cf im m v, good cf -> large cf im -> normalizing cf = true -> (forall b, 0 <= b < bins cf -> exists dy dx, covers cf b dy dx) ->
  (forall ch y x, px im ch y x = v ch) -> dense cf im = Some m ->
  forall r c b, 0 <= r < rows im -> 0 <= c < cols im -> 0 <= b < bins cf -> m ((r * cols im + c) * bins cf + b) = Some (sqrt (1 / IZR (bins cf))).
Proof. exact flat_map. Qed.
Print Assumptions C93_border_refuted.

(** a patch that recurs nowhere can get the descriptor of one that recurs everywhere *)
Theorem C93_faint_refuted : exists cf im flat r c e e', good cf /\ normalizing cf = true /\ large cf im /\ large cf flat /\ inner cf im r c /\ inner cf flat r c /\
  (forall ch y x y' x', px flat ch y x = px flat ch y' x') /\
  (forall b dy dx, covers cf b dy dx -> exists ch oy ox, 0 <= ch < chans im /\ Z.abs oy <= patch cf / 2 /\ Z.abs ox <= patch cf / 2 /\ 255 <= Z.abs (px im ch (r + dy + oy) (c + dx + ox) - px im ch (r + oy) (c + ox))) /\
  describes cf im r c e /\ describes cf flat r c e' /\ forall b, 0 <= b < bins cf -> e b = e' b.
Proof. exact faint_refuted. Qed.
Print Assumptions C93_faint_refuted.

(** the extractor says that it adapts to the noise; it uses the given level *)
Theorem C93_dynamic_refuted : says_dynamic = true /\ exists cf cf' im r c e e', good cf /\ good cf' /\ large cf im /\ inner cf im r c /\
  (patch cf', outer cf', bins cf', lut cf', first cf', last cf', normalizing cf') = (patch cf, outer cf, bins cf, lut cf, first cf, last cf, normalizing cf) /\
  describes cf im r c e /\ describes cf' im r c e' /\ e 0 <> e' 0.
Proof. exact dynamic_refuted. Qed.
Print Assumptions C93_dynamic_refuted.

(** with Lienhart's mask and one radial bin the descriptors do not depend on the image *)
Theorem C93_blind_refuted : forall cf raw le nA im im' r c r' c' e e',
  lienhart raw (lienhart_rad le 1) (corr cf) 1 nA = Mask (lut cf) (first cf) (last cf) -> describes cf im r c e -> describes cf im' r' c' e' ->
  forall b, 0 <= b < bins cf -> e b = e' b.
Proof.
  intros cf raw le nA im im' r c r' c' e e' M. apply blind. intros i x N. apply (lienhart_one_bin raw le (corr cf) nA) in M.
  rewrite Forall_forall in M. apply M. eapply nth_error_In. exact N.
Qed.
Print Assumptions C93_blind_refuted.

(** a configuration with eight bins, one for each neighbour, and two images *)
Example C93_ex_good : good (eight 300 true). Proof. apply eight_good. lra. Qed.
Example C93_ex_accepted : accepted (eight 300 true) = true. Proof. reflexivity. Qed.
Example C93_ex_large : large (eight 300 true) spot /\ inner (eight 300 true) spot 1 1. Proof. split; [ now apply eight_large | unfold inner; cbn; lia ]. Qed.
Example C93_ex_covered : forall b, 0 <= b < 8 -> exists dy dx, covers (eight 300 true) b dy dx. Proof. apply eight_covered. Qed.
Example C93_ex_cost : cost spot 0 1 1 (-1) 1 = 65025 /\ cost dark 0 1 1 (-1) 1 = 0. Proof. split; reflexivity. Qed.
Example C93_ex_blind : exists f l, lienhart (fun _ _ => 0) (lienhart_rad (fun _ _ _ => true) 1) 3 1 4 = Mask [None; None; None; None; None; None; None; None; None] f l.
Proof. eexists. eexists. reflexivity. Qed.
