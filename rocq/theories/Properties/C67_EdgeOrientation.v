(** C67: gradients accumulated over the levels of the LBSP edge detector, and the direction of non-maximum suppression. *)
From Coq Require Import ZArith NArith List Bool.
From Verif Require Import Model.EdgeDetector Model.Lbsp Spec.EdgeDetector Proofs.EdgeGradient Proofs.EdgeDetector.
Import ListNotations.
Open Scope Z_scope.

(** despite the in-place copies the magnitude kept for a pixel is the smallest over the levels of the pixel's cells; the stored x gradient is always 0
    and the stored y gradient is -1, 0 or 1 *)
Theorem C67_accumulated : forall g H W L r c, (0 < L)%nat -> 0 <= r < H -> 0 <= c < W -> (forall l y x, snd (g l y x) <= 127) ->
  let v := accumulate g H W L r c in
  minimum_over L (fun l => snd (g l (r / 2 ^ Z.of_nat l) (c / 2 ^ Z.of_nat l))) (snd v) /\ fst (fst v) = 0 /\ -1 <= snd (fst v) <= 1 /\
  (snd (fst v) = 0 <-> exists l, (l < L)%nat /\ snd (fst (g l (r / 2 ^ Z.of_nat l) (c / 2 ^ Z.of_nat l))) = 0).
Proof. exact accumulated_parts. Qed.
Print Assumptions C67_accumulated.

(** the sector test on its own is exact: below 22.5 degrees from the horizontal, or from the vertical *)
Theorem C67_sector_exact : forall gx gy, -128 <= gx <= 127 -> -128 <= gy <= 127 ->
  (match sector_of gx gy with Flat => true | _ => false end = ((Z.abs gx + Z.abs gy) * (Z.abs gx + Z.abs gy) <? 2 * (gx * gx))) /\
  (match sector_of gx gy with Vertical => true | _ => false end = ((Z.abs gy + Z.abs gx) * (Z.abs gy + Z.abs gx) <? 2 * (gy * gy))).
Proof. exact sectors_exact. Qed.
Print Assumptions C67_sector_exact.

(** but on accumulated gradients only two of the sectors occur *)
Theorem C67_sectors_used : forall g H W L r c, (0 < L)%nat -> 0 <= r < H -> 0 <= c < W ->
  let v := accumulate g H W L r c in
  sector_of (fst (fst v)) (snd (fst v)) = if snd (fst v) =? 0 then AnyDiag else Vertical.
Proof. exact accumulated_sector. Qed.
Print Assumptions C67_sectors_used.

(** so a candidate is always a maximum against the two rows above and below, vertically or diagonally *)
Theorem C67_candidate_directions : forall g H W L low, (0 < L)%nat -> forall r c, 0 <= r < H -> 0 <= c < W ->
  let f := accumulate g H W L in candidate f H W low r c = true ->
  low <= snd (f r c) /\ exists dc, -1 <= dc <= 1 /\ (forall k, k = 1 \/ k = 2 ->
    mag_at f H W (r - k) (c - k * dc) < snd (f r c) /\ mag_at f H W (r + k) (c + k * dc) <= snd (f r c)).
Proof. exact candidate_directions. Qed.
Print Assumptions C67_candidate_directions.

(** the suppression does not follow the gradient: when every level sees an almost horizontal gradient, the vertical direction is used *)
Theorem C67_follows_gradient_refuted : exists g : nat -> Z -> Z -> grad, (forall l r c, g l r c = (6, 1, 16)) /\ sector_of 6 1 = Flat /\
  forall H W L r c, (0 < L)%nat -> 0 <= r < H -> 0 <= c < W ->
    let v := accumulate g H W L r c in sector_of (fst (fst v)) (snd (fst v)) = Vertical.
Proof.
  exists (fun _ _ _ => (6, 1, 16)). split; auto. split; [ reflexivity |]. intros H W L r c HL R C v.
  pose proof (accumulated_sector (fun _ _ _ => (6, 1, 16)) H W L r c HL R C) as S. cbn zeta in S. unfold gx3, gy3 in S. unfold v.
  destruct (accumulated_parts (fun _ _ _ => (6, 1, 16)) H W L r c HL R C) as (_ & _ & _ & Z0). { intros. now vm_compute. }
  unfold gy3 in Z0. rewrite S. destruct (Z.eqb_spec (snd (fst (accumulate (fun _ _ _ => (6, 1, 16)) H W L r c))) 0) as [E|E]; auto.
  apply Z0 in E. destruct E as (l & _ & E). discriminate.
Qed.
Print Assumptions C67_follows_gradient_refuted.

(** border pixels, whose sixteen values are the pixel itself, have gradient (0,0) and magnitude 0 *)
Theorem C67_border_descriptor : forall x t, 0 <= x < 256 -> 0 <= t -> thr_scalar (repeat x 16) x t = Some 0.
Proof. exact border_descriptor. Qed.
Print Assumptions C67_border_descriptor.
Theorem C67_border_gradient : forall n, gradient (repeat 0%N n) 0%N = Some (0, 0, 0%N).
Proof. exact border_gradient. Qed.
Print Assumptions C67_border_gradient.

(** three levels over a 5x6 image: the cell (1,1) of level 1 and (0,0) of level 2 limit pixel (3,2) *)
Example C67_ex_levels : accumulate (fun l r c => match l with O => (5, 4, 9) | S O => (3, r - 1, 7 + c) | _ => (1, 2, 12) end) 5 6 3 3 2 = (0, 0, 8).
Proof. vm_compute. reflexivity. Qed.
Example C67_ex_sectors : sector_of 100 41 = Flat /\ sector_of 100 42 = Diag true /\ sector_of (-41) 100 = Vertical /\ sector_of (-42) 100 = Diag false.
Proof. vm_compute. auto. Qed.
