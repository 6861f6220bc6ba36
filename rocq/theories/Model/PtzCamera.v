(* The state of the virtual PTZ camera: vptz::Camera Set, GoToPosition, BeginPlaying, WaitDelay and the timing of GetFrame, modules/vptz/src/virtualptz.cpp lines 128-200 and 229-297,
   and the constructor without a camera and UpdateViewAngle of GTTranslator (lines 315-338). Doubles are reals; points in time are the tick count in seconds, passed in. Rendering, sleeping and
   the reading of the video are left out (whether a frame could be read is an input). *)
From Coq Require Import ZArith Reals Bool List.
From Verif Require Import Model.Ptz.
Open Scope R_scope.

Record camera := {
  count : Z;        (* m_nScenarioFrameCount *)
  rate : R;         (* m_dFrameRate *)
  frame : Z;        (* m_nCurrFrameIdx *)
  lens : view;      (* outputWidth, outputHeight, vertiFOV, horiAngle, vertiAngle *)
  hori_speed : R; verti_speed : R; delay_ratio : R; comm_delay : R;
  hori_change : R; verti_change : R;
  first_tick : R; now : R; overhead : R; begin_time : R }.

Definition with_frame (c : camera) f := {| count := count c; rate := rate c; frame := f; lens := lens c; hori_speed := hori_speed c; verti_speed := verti_speed c; delay_ratio := delay_ratio c;
  comm_delay := comm_delay c; hori_change := hori_change c; verti_change := verti_change c; first_tick := first_tick c; now := now c; overhead := overhead c; begin_time := begin_time c |}.
Definition with_rate (c : camera) r := {| count := count c; rate := r; frame := frame c; lens := lens c; hori_speed := hori_speed c; verti_speed := verti_speed c; delay_ratio := delay_ratio c;
  comm_delay := comm_delay c; hori_change := hori_change c; verti_change := verti_change c; first_tick := first_tick c; now := now c; overhead := overhead c; begin_time := begin_time c |}.
Definition with_lens (c : camera) l dh dv := {| count := count c; rate := rate c; frame := frame c; lens := l; hori_speed := hori_speed c; verti_speed := verti_speed c; delay_ratio := delay_ratio c;
  comm_delay := comm_delay c; hori_change := dh; verti_change := dv; first_tick := first_tick c; now := now c; overhead := overhead c; begin_time := begin_time c |}.
Definition with_speed (c : camera) a b d e := {| count := count c; rate := rate c; frame := frame c; lens := lens c; hori_speed := a; verti_speed := b; delay_ratio := d;
  comm_delay := e; hori_change := hori_change c; verti_change := verti_change c; first_tick := first_tick c; now := now c; overhead := overhead c; begin_time := begin_time c |}.
Definition with_clock (c : camera) f t o b := {| count := count c; rate := rate c; frame := frame c; lens := lens c; hori_speed := hori_speed c; verti_speed := verti_speed c; delay_ratio := delay_ratio c;
  comm_delay := comm_delay c; hori_change := hori_change c; verti_change := verti_change c; first_tick := f; now := t; overhead := o; begin_time := b |}.

(* std::fmod *)
Definition fmod (x y : R) : R := x - IZR (trunc (x / y)) * y.
(* lines 249-250 *)
Definition wrap (v : R) : R :=
  if leb v (-180) || ltb 180 v then (let n := if ltb v 0 then 1 else 0 in fmod (v + 180 - 360 * n) 360 - 180 + 360 * n) else v.
(* lines 253-257 and 133-137 *)
Definition change (old new : R) : R := let d := new - old in if ltb 180 d then 360 - d else if leb d (-180) then d + 360 else d.

Inductive flag := Frame_rate | Frame_pos | Verti_fov | Hori_angle | Verti_angle | Hori_speed | Verti_speed | Delay_ratio | Comm_delay | Other_flag.
(* Camera::Set; None is lvError. The other flags (size of the output, number of frames, ...) are rejected *)
Definition set (c : camera) (f : flag) (v : R) : option camera :=
  let l := lens c in
  match f with
  | Frame_rate => Some (with_rate c v)
  | Frame_pos => if ltb (IZR (count c - 1)) v || ltb v 0 then None else Some (with_frame c (trunc v))
  | Verti_fov => if leb 180 v || leb v 0 then None else Some (with_lens c {| width := width l; height := height l; fov := v; hori := hori l; verti := verti l |} (hori_change c) (verti_change c))
  | Hori_angle => let v := wrap v in Some (with_lens c {| width := width l; height := height l; fov := fov l; hori := v; verti := verti l |} (change (hori l) v) (verti_change c))
  | Verti_angle => if ltb v 0 || ltb 180 v then None
                   else Some (with_lens c {| width := width l; height := height l; fov := fov l; hori := hori l; verti := v |} (hori_change c) (v - verti l))
  | Hori_speed => if leb v 0 then None else Some (with_speed c v (verti_speed c) (delay_ratio c) (comm_delay c))
  | Verti_speed => if leb v 0 then None else Some (with_speed c (hori_speed c) v (delay_ratio c) (comm_delay c))
  | Delay_ratio => if ltb v 0 then None else Some (with_speed c (hori_speed c) (verti_speed c) v (comm_delay c))
  | Comm_delay => if ltb v 0 then None else Some (with_speed c (hori_speed c) (verti_speed c) (delay_ratio c) v)
  | Other_flag => None
  end.
(* Camera::GoToPosition *)
Definition go_to (c : camera) (x y : Z) : option camera :=
  let l := lens c in
  match xy_to_hv l x y with
  | None => None
  | Some (h, v) => Some (with_lens c {| width := width l; height := height l; fov := fov l; hori := h; verti := v |} (change (hori l) h) (v - verti l))
  end.
(* Camera::BeginPlaying at the tick t *)
Definition begin_playing (c : camera) (n : Z) (t : R) : option camera :=
  match set c Frame_pos (IZR n) with
  | None => None
  | Some c => Some (with_clock c t (IZR n / rate c) (overhead c) (begin_time c))
  end.
Definition motion_delay (c : camera) : R := Rabs (hori_change c) / hori_speed c + Rabs (verti_change c) / verti_speed c.
Definition execution_delay (c : camera) (t : R) : R := t - first_tick c - begin_time c - overhead c.
(* Camera::WaitDelay, entered at the tick t and left at the tick u; None: the frame position is no int *)
Definition wait (c : camera) (t u : R) : option (camera * bool) :=
  if (count c <=? frame c)%Z then Some (c, false)
  else
    let now' := now c + (delay_ratio c * execution_delay c t + motion_delay c + comm_delay c) in
    match to_int (now' * rate c + / 2) with
    | None => None
    | Some i => let f := Z.max i (frame c + 1) in
      Some (with_clock (with_frame c f) (first_tick c) now' (overhead c) (u - first_tick c), (f <? count c)%Z)
    end.
(* the timing of Camera::GetFrame, entered at the tick t and left at the tick u, when the frame could be read *)
Definition get_frame (c : camera) (ok : bool) (t u : R) : camera := if ok then with_clock c (first_tick c) (now c) (u - t) (begin_time c) else c.

Inductive op := Set_ (f : flag) (v : R) | Go_to (x y : Z) | Begin_playing (n : Z) (t : R) | Wait (t u : R) | Get_frame (ok : bool) (t u : R).
Definition step (c : camera) (o : op) : option camera :=
  match o with
  | Set_ f v => set c f v
  | Go_to x y => go_to c x y
  | Begin_playing n t => begin_playing c n t
  | Wait t u => match wait c t u with Some (c, _) => Some c | None => None end
  | Get_frame ok t u => Some (get_frame c ok t u)
  end.
Fixpoint steps (c : camera) (os : list op) : option camera := match os with nil => Some c | o :: os => match step c o with Some c => steps c os | None => None end end.

(* the initial state, lines 70-91; the angles before the first Set are never used: the changes are reset afterwards *)
Definition create (n : Z) (r w h f hori verti hs vs cd : R) : option camera :=
  let c := {| count := n; rate := r; frame := 0; lens := {| width := Z.max (trunc w) 1; height := Z.max (trunc h) 1; fov := 0; hori := 0; verti := 0 |};
    hori_speed := 0; verti_speed := 0; delay_ratio := 1; comm_delay := 0; hori_change := 0; verti_change := 0; first_tick := 0; now := 0; overhead := 0; begin_time := 0 |} in
  match steps c (Set_ Verti_fov f :: Set_ Hori_angle hori :: Set_ Verti_angle verti :: Set_ Hori_speed hs :: Set_ Verti_speed vs :: Set_ Comm_delay cd :: nil) with
  | None => None
  | Some c => Some (with_lens c (lens c) 0 0)
  end.

(* GTTranslator without camera: the current view and that of the basic ground truth *)
Record translator := { cur : view; bgt_width : Z; bgt_height : Z; bgt_fov : R }.
(* lines 315-334: h0 and v0 are the values that the members curHoriAngle and curVertiAngle have before they are set *)
Definition make (h0 v0 : R) (w h : Z) (f hori verti : R) (bw bh : Z) (bf : R) : option translator :=
  if (w <? 1)%Z || (h <? 1)%Z || leb f 0 || leb 180 f || (bw <? 1)%Z || (bh <? 1)%Z || leb bf 0 || leb 180 bf || negb (good_angles h0 v0) then None
  else Some {| cur := {| width := w; height := h; fov := f; hori := hori; verti := verti |}; bgt_width := bw; bgt_height := bh; bgt_fov := bf |}.
Definition update_view (t : translator) (h v : R) : option translator :=
  let l := cur t in
  if negb (good_angles (hori l) (verti l)) then None
  else Some {| cur := {| width := width l; height := height l; fov := fov l; hori := h; verti := v |}; bgt_width := bgt_width t; bgt_height := bgt_height t; bgt_fov := bgt_fov t |}.
(* GetGTTargetPoint, lines 340-353 *)
Definition target_point (t : translator) (h v : R) : projected := if negb (good_angles h v) then Bad else hv_to_xy (cur t) h v.
