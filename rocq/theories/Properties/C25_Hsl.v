(** C25: HSL conversions (exact arithmetic). *)
From Coq Require Import QArith ZArith Lia Lqa.
From Verif Require Import Model.Hsl Spec.Hsl Proofs.Hsl.
Open Scope Q_scope.

Theorem C25_bgr_channels_in_range : forall h s l, 0 <= h -> h < 360 -> unit_range s -> unit_range l ->
  let '(b, g, r) := bgr_of h s l in unit_range b /\ unit_range g /\ unit_range r.
Proof. exact bgr_in_range. Qed.
Print Assumptions C25_bgr_channels_in_range.

(** any colour to HSL and back; the intermediate HSL triplet satisfies the ranges asserted by the inverse conversion *)
Theorem C25_bgr_hsl_bgr : forall b g r, unit_range b -> unit_range g -> unit_range r ->
  let '(h, s, l) := hsl_of b g r in (0 <= h /\ h < 360) /\ unit_range s /\ unit_range l /\ eq3 (bgr_of h s l) (b, g, r).
Proof. exact roundtrip. Qed.
Print Assumptions C25_bgr_hsl_bgr.

Theorem C25_bgr8_hsl_bgr8 : forall b g r, (0 <= b <= 255)%Z -> (0 <= g <= 255)%Z -> (0 <= r <= 255)%Z ->
  let '(h, s, l) := getHSLFromBGR b g r in getBGRFromHSL h s l = (b, g, r).
Proof. exact roundtrip8. Qed.
Print Assumptions C25_bgr8_hsl_bgr8.

(** a proper colour (neither grey, black nor white) comes back with the same hue, saturation and lightness *)
Theorem C25_hsl_bgr_hsl : forall h s l, 0 <= h -> h < 360 -> 0 < s -> s <= 1 -> 0 < l -> l < 1 ->
  let '(b, g, r) := bgr_of h s l in eq3 (hsl_of b g r) (h, s, l).
Proof. exact roundtrip_back. Qed.
Print Assumptions C25_hsl_bgr_hsl.

(** whatever the arguments, the bytes are bytes *)
Theorem C25_bytes : forall h s l, let '(b, g, r) := getBGRFromHSL h s l in (0 <= b <= 255)%Z /\ (0 <= g <= 255)%Z /\ (0 <= r <= 255)%Z.
Proof. exact bytes_in_range. Qed.
Print Assumptions C25_bytes.

Example C25_ex_orange : getBGRFromHSL 30 1 (1#2) = (0, 128, 255)%Z. Proof. vm_compute. reflexivity. Qed.
Example C25_ex_teal : let '(h, s, l) := getHSLFromBGR 128 128 0 in h == 180 /\ s == 1 /\ getBGRFromHSL h s l = (128, 128, 0)%Z.
Proof. vm_compute. repeat split. Qed.
