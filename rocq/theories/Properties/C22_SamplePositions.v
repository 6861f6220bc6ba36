(** C22: sample and neighbour positions stay inside the image and follow the kernel weights. *)
From Coq Require Import ZArith List Lia Bool.
From Verif Require Import Model.Sampling Spec.Sampling Proofs.Sampling.
Import ListNotations.
Open Scope Z_scope.

Theorem C22_clamp_inside_and_nearest : forall p b sz, room b sz ->
  inside (clampImageCoords p b sz) b sz /\ (inside p b sz -> clampImageCoords p b sz = p) /\
  (forall q, inside q b sz -> cheb (clampImageCoords p b sz) p <= cheb q p).
Proof. exact (fun p b sz R => conj (clamp_inside p b sz R) (conj (clamp_id p b sz) (fun q => clamp_nearest p q b sz R))). Qed.
Print Assumptions C22_clamp_inside_and_nearest.

(** without room for the border the clamped point may even leave the image *)
Theorem C22_clamp_without_room_refuted :
  exists p b sz, 0 <= b /\ 0 < fst sz /\ 0 < snd sz /\ inside p 0 sz /\ ~ inside (clampImageCoords p b sz) 0 sz.
Proof. exact clamp_no_room. Qed.
Print Assumptions C22_clamp_without_room_refuted.

Theorem C22_sample_inside : forall K W H tot rnd o b sz, room b sz -> inside (getSamplePosition K W H tot rnd o b sz) b sz.
Proof. exact sample_inside. Qed.
Print Assumptions C22_sample_inside.

(** any kernel whose total is the modulus: over one cycle of random values each cell is selected as often as its weight *)
Theorem C22_sample_frequency_is_weight : forall K W H o b sz i j,
  kernel K W H -> 0 < total K -> (i < W)%nat -> (j < H)%nat ->
  let at_ i j := (fst o - Z.of_nat W / 2 + Z.of_nat i, snd o - Z.of_nat H / 2 + Z.of_nat j) in
  (forall i j, (i < W)%nat -> (j < H)%nat -> inside (at_ i j) b sz) ->
  Z.of_nat (how_many (Z.to_nat (total K)) (fun k => same (getSamplePosition K W H (total K) k o b sz) (at_ i j))) = weight K i j.
Proof. exact sample_frequency. Qed.
Print Assumptions C22_sample_frequency_is_weight.

(** the two kernels of the library satisfy the hypothesis on the total *)
Theorem C22_sample_3x3_7x7 : forall o b sz, room b sz ->
  (b + 1 <= fst o <= fst sz - b - 2 -> b + 1 <= snd o <= snd sz - b - 2 -> forall i j, (i < 3)%nat -> (j < 3)%nat ->
     Z.of_nat (how_many 256 (fun k => same (getSamplePosition_3x3_std1 k o b sz) (fst o - 1 + Z.of_nat i, snd o - 1 + Z.of_nat j)))
     = nth i (nth j [[19;32;19];[32;52;32];[19;32;19]] []) 0) /\
  (b + 3 <= fst o <= fst sz - b - 4 -> b + 3 <= snd o <= snd sz - b - 4 -> forall i j, (i < 7)%nat -> (j < 7)%nat ->
     Z.of_nat (how_many 512 (fun k => same (getSamplePosition_7x7_std2 k o b sz) (fst o - 3 + Z.of_nat i, snd o - 3 + Z.of_nat j)))
     = nth i (nth j [[2;4;6;7;6;4;2];[4;8;12;14;12;8;4];[6;12;21;25;21;12;6];[7;14;25;28;25;14;7];[6;12;21;25;21;12;6];[4;8;12;14;12;8;4];[2;4;6;7;6;4;2]] []) 0).
Proof.
  exact (fun o b sz R => conj (fun A B i j Hi Hj => sample3_frequency o b sz i j Hi Hj R A B) (fun A B i j Hi Hj => sample7_frequency o b sz i j Hi Hj R A B)).
Qed.
Print Assumptions C22_sample_3x3_7x7.

Theorem C22_sample_periodic : forall K W H tot k o b sz, 0 < tot -> 0 <= k ->
  getSamplePosition K W H tot (k + tot) o b sz = getSamplePosition K W H tot k o b sz.
Proof. exact sample_periodic. Qed.
Print Assumptions C22_sample_periodic.

(** a negative random value always yields the first kernel cell *)
Theorem C22_sample_negative_random : forall K W H tot k o b sz, (0 < W)%nat -> kernel K W H -> (0 < H)%nat -> 0 < tot -> k < 0 -> 0 < weight K 0 0 ->
  getSamplePosition K W H tot k o b sz = clampImageCoords (fst o - Z.of_nat W / 2, snd o - Z.of_nat H / 2) b sz.
Proof. exact sample_negative. Qed.
Print Assumptions C22_sample_negative_random.

Theorem C22_neighbor_defined_inside : forall pat rnd o b sz, pat <> [] -> 0 <= rnd -> room b sz ->
  exists p, getNeighborPosition pat rnd o b sz = Some p /\ inside p b sz.
Proof. exact neighbor_ok. Qed.
Print Assumptions C22_neighbor_defined_inside.

(** away from the borders every neighbour is selected by exactly one of the 8 (24) residues, and nothing else is *)
Theorem C22_neighbor_exactly_once : forall o b sz dx dy, room b sz ->
  (b + 1 <= fst o <= fst sz - b - 2 -> b + 1 <= snd o <= snd sz - b - 2 ->
    how_many 8 (fun k => hits (fst o + dx, snd o + dy) (getNeighborPosition_3x3 k o b sz)) =
    if (Z.abs dx <=? 1) && (Z.abs dy <=? 1) && negb ((dx =? 0) && (dy =? 0)) then 1%nat else 0%nat) /\
  (b + 2 <= fst o <= fst sz - b - 3 -> b + 2 <= snd o <= snd sz - b - 3 ->
    how_many 24 (fun k => hits (fst o + dx, snd o + dy) (getNeighborPosition_5x5 k o b sz)) =
    if (Z.abs dx <=? 2) && (Z.abs dy <=? 2) && negb ((dx =? 0) && (dy =? 0)) then 1%nat else 0%nat).
Proof. exact (fun o b sz dx dy R => conj (neighbor8_exactly_once o b sz dx dy R) (neighbor24_exactly_once o b sz dx dy R)). Qed.
Print Assumptions C22_neighbor_exactly_once.

Theorem C22_neighbor_negative_random_undefined : forall pat rnd o b sz,
  Z.rem rnd (Z.of_nat (length pat)) < 0 -> getNeighborPosition pat rnd o b sz = None.
Proof. exact neighbor_negative. Qed.
Print Assumptions C22_neighbor_negative_random_undefined.

Example C22_ex_room : room 2 (320, 240). Proof. unfold room; cbn; lia. Qed.
Example C22_ex_sample : getSamplePosition_3x3_std1 100 (10, 10) 2 (320, 240) = (9, 10) /\ getSamplePosition_7x7_std2 511 (319, 239) 2 (320, 240) = (317, 237).
Proof. split; reflexivity. Qed.
Example C22_ex_neighbor : getNeighborPosition_3x3 1000 (0, 0) 0 (4, 4) = Some (0, 1) /\ getNeighborPosition_3x3 (-1) (5, 5) 0 (10, 10) = None.
Proof. split; reflexivity. Qed.
