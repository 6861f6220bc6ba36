(** HSL conversions, modules/utils/include/litiv/utils/opencv.hpp:1164-1213, in exact rational arithmetic (the code uses float). *)
From Coq Require Import QArith Qround ZArith.
Open Scope Q_scope.

Definition ltb (a b : Q) : bool := negb (Qle_bool b a).
(** lH2RGB, opencv.hpp:1176-1188 *)
Definition h2rgb (p q t0 : Q) : Q :=
  let t1 := if ltb t0 0 then t0 + 1 else t0 in
  let t := if ltb 1 t1 then t1 - 1 else t1 in
  if ltb t (1 # 6) then p + (q - p) * 6 * t
  else if ltb t (1 # 2) then q
  else if ltb t (2 # 3) then p + (q - p) * ((2 # 3) - t) * 6
  else p.
(** opencv.hpp:1170-1192 before quantisation: (blue, green, red) in the unit range *)
Definition bgr_of (hue s l : Q) : Q * Q * Q :=
  if Qeq_bool s 0 then (l, l, l)
  else if Qeq_bool l 0 then (0, 0, 0)
  else if Qeq_bool l 1 then (1, 1, 1)
  else
    let q := if ltb l (1 # 2) then l * (1 + s) else l + s - l * s in
    let p := 2 * l - q in
    let h := hue / 360 in
    (h2rgb p q (h - (1 # 3)), h2rgb p q h, h2rgb p q (h + (1 # 3))).
(** std::round (half away from zero) and saturate_cast<uint8_t> *)
Definition round (x : Q) : Z := if ltb x 0 then (- Qfloor (- x + (1 # 2)))%Z else Qfloor (x + (1 # 2)).
Definition sat (v : Z) : Z := if (v <? 0)%Z then 0%Z else if (255 <? v)%Z then 255%Z else v.
Definition quant (x : Q) : Z := sat (round (x * 255)).
(** opencv.hpp:1165-1193; the early return for lightness 0 and 1 gives 0 and 255, which quantisation also gives *)
Definition getBGRFromHSL (hue s l : Q) : Z * Z * Z := let '(b, g, r) := bgr_of hue s l in (quant b, quant g, quant r).

Definition qmax (a b : Q) : Q := if ltb a b then b else a.
Definition qmin (a b : Q) : Q := if ltb b a then b else a.
Definition qabs (a : Q) : Q := if ltb a 0 then - a else a.
(** opencv.hpp:1204-1212 on channels in the unit range *)
Definition hsl_of (b g r : Q) : Q * Q * Q :=
  let mx := qmax r (qmax g b) in
  let mn := qmin r (qmin g b) in
  let l := (mx + mn) / 2 in
  if Qeq_bool mx mn then (0, 0, l)
  else
    let d := mx - mn in
    let s := qmax 0 (qmin (d / (1 - qabs (2 * l - 1))) 1) in
    let h := (if Qeq_bool mx r then (g - b) / d + (if ltb g b then 6 else 0)
              else if Qeq_bool mx g then (b - r) / d + 2 else (r - g) / d + 4) * 60 in
    (h, s, l).
(** opencv.hpp:1201-1213 *)
Definition unit8 (v : Z) : Q := inject_Z v / 255.
Definition getHSLFromBGR (b g r : Z) : Q * Q * Q := hsl_of (unit8 b) (unit8 g) (unit8 r).
