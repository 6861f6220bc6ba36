(** C30: log-polar masks. *)
From Coq Require Import ZArith List Lia.
From Verif Require Import Lib.Grid Model.LogPolar Spec.LogPolar Proofs.LogPolar.
Import ListNotations.
Open Scope Z_scope.

(** Chatfield layout, angular bin count dividing 360: every entry is a valid descriptor index, for every mask size other than 3 *)
Theorem C30_chatfield_valid : forall deg rad n nR nA, 0 < n -> n mod 2 = 1 -> n <> 3 -> 0 < nR -> 0 < nA -> (nA | 360) ->
  (forall y x, 0 <= deg y x <= 360) -> valid_mask n nR nA (chatfield deg rad n nR nA).
Proof. exact chatfield_ok. Qed.
Print Assumptions C30_chatfield_valid.

(** for every other bin count up to 360 some angle gives a bin that does not exist *)
Theorem C30_chatfield_bad_angle : forall nA, 0 < nA <= 360 -> ~ (nA | 360) ->
  exists a, 0 <= a < 360 /\ nA <= ((a + (360 / nA) / 2) mod 360) / (360 / nA).
Proof. exact chatfield_bad_angle. Qed.
Print Assumptions C30_chatfield_bad_angle.

(** with 100 angular bins already the diagonal neighbour of the centre gets an index past the end of the descriptor *)
Theorem C30_chatfield_out_of_range_refuted : exists nR nA, 0 < nR /\ 0 < nA <= 360 /\ forall deg rad, deg (-1) 1 = 315 -> 0 <= rad (-1) 1 < nR ->
  exists e, chatfield_entry deg rad nR nA (-1) 1 = Some e /\ nR * nA <= e.
Proof. exact chatfield_overflow. Qed.
Print Assumptions C30_chatfield_out_of_range_refuted.

(** more than 360 bins: division by zero as soon as one pixel has a radial bin *)
Theorem C30_chatfield_division_by_zero : forall deg rad n nR nA, 0 < n -> n mod 2 = 1 -> n <> 3 -> 0 < nR -> 360 < nA ->
  (exists y x, - (n / 2) <= y <= n / 2 /\ - (n / 2) <= x <= n / 2 /\ (y <> 0 \/ x <> 0) /\ 0 <= rad y x < nR) -> chatfield deg rad n nR nA = MaskUB.
Proof. exact chatfield_div0. Qed.
Print Assumptions C30_chatfield_division_by_zero.

(** Lienhart layout: always valid *)
Theorem C30_lienhart_valid : forall raw rad n nR nA, 0 < n -> n mod 2 = 1 -> 0 < nR -> 0 < nA -> (forall y x, 0 <= raw y x) ->
  valid_mask n nR nA (lienhart raw rad n nR nA).
Proof. exact lienhart_ok. Qed.
Print Assumptions C30_lienhart_valid.

(** ... but empty when there is a single radial bin *)
Theorem C30_lienhart_one_bin_empty : forall raw le n nA es f l, lienhart raw (lienhart_rad le 1) n 1 nA = Mask es f l -> Forall (fun e => e = None) es.
Proof. exact lienhart_one_bin. Qed.
Print Assumptions C30_lienhart_one_bin_empty.

Definition ex_deg (y x : Z) : Z := if y =? 0 then (if x <? 0 then 180 else 0) else if x =? 0 then (if y <? 0 then 270 else 90)
  else if y <? 0 then (if x <? 0 then 225 else 315) else if x <? 0 then 135 else 45.
Example C30_ex_chatfield : chatfield ex_deg (fun y x => Z.max (Z.abs y) (Z.abs x) - 1) 5 2 4 =
  Mask (map (fun z => if z =? -1 then None else Some z) [6;6;6;0;0; 6;7;7;1;0; 4;5;-1;1;0; 4;5;3;3;2; 4;4;2;2;2]) 0 24.
Proof. reflexivity. Qed.
Example C30_ex_valid : (4 | 360) /\ valid_mask 5 2 4 (chatfield ex_deg (fun y x => Z.max (Z.abs y) (Z.abs x) - 1) 5 2 4).
Proof.
  split; [ exists 90; reflexivity |]. apply C30_chatfield_valid; try lia; try reflexivity; [ exists 90; reflexivity |].
  intros y x. unfold ex_deg. repeat match goal with |- context [if ?b then _ else _] => destruct b end; lia.
Qed.
