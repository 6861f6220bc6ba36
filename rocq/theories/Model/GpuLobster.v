(* The LOBSTER background subtractor on the graphics card: BackgroundSubtractorLOBSTER_GLSL, modules/video/src/BackgroundSubtractorLOBSTER.cpp lines 46-276 and 331-360, with LBSP::getShaderFunctionSource,
   modules/features2d/src/LBSP.cpp lines 400-453, and the distances of modules/utils/include/litiv/utils/math.hpp lines 768-808. One or four channels, as the shaders demand.
   The model is one buffer of words, seen by the host (refreshModel, getBackgroundImage) and by the shader. Invocations run in any order, one access to the buffer at a time; frames one after the other.
   Random numbers of an invocation are any words (Model/GlRandom.v). The shared array of pixels is the image around the group (C107). A frame is a flat buffer as in Model/Lobster.v; the region keeps 2 pixels
   from the border of the frame (IIBackgroundSubtractor::initialize_common). The median blur of the mask is in Model/GlTile.v. Not modelled: BGSLOBSTER_GLSL_USE_BASIC_IMPL, missing memory barriers between frames. *)
From Coq Require Import ZArith NArith List Bool.
From Verif Require Import Lib.Grid Model.Distances Model.Sampling Model.GlRandom Model.Lobster.
Import ListNotations.
Open Scope Z_scope.

Section Gpu.
Variables (c : config) (size : Z * Z).
Definition nb : Z := Z.of_nat (samples c).
(* lines 105-109: m_nPxModelSize, m_nPxModelPadding, m_nColStepSize, m_nRowStepSize, m_nBGModelSize *)
Definition px_size : Z := channels c * nb * 2.
Definition padding : Z := if px_size mod 4 =? 0 then 0 else 4 - px_size mod 4.
Definition col_step : Z := px_size + padding.
Definition row_step : Z := col_step * fst size.
Definition model_size : Z := row_step * snd size.
(* lines 58, 61, 70-71 and 74-75 *)
Definition host_colour (p : Z * Z) (s : nat) (ch : Z) : Z := ch + (Z.of_nat s * channels c + (fst p * col_step + snd p * row_step)).
Definition host_texture (p : Z * Z) (s : nat) (ch : Z) : Z := ch + (Z.of_nat s * channels c + (fst p * col_step + snd p * row_step) + nb * channels c).
(* lines 158-166 laid out by the rules of std430: words of uint or uvec4, then those of the padding; the stride of aoPxModels is a multiple of the alignment *)
Definition vec : Z := if channels c =? 4 then 4 else 1.
Definition stride_430 : Z := (nb * vec + nb * vec + padding + vec - 1) / vec * vec.
Definition gpu_colour (index : Z) (s : nat) (k : Z) : Z := index * stride_430 + Z.of_nat s * vec + k.
Definition gpu_texture (index : Z) (s : nat) (k : Z) : Z := index * stride_430 + nb * vec + Z.of_nat s * vec + k.
(* lines 191 and 240, in words *)
Definition model_index (p : Z * Z) : Z := ((snd p mod 2 ^ 32) * fst size + fst p mod 2 ^ 32) mod 2 ^ 32.

(* lines 76 and 355: red is channel 2 of the frame, here and in textures (opengl.hpp:299-310: GL_BGRA_INTEGER) *)
Definition swap (k : Z) : Z := if (k =? 3) || (channels c =? 1) then k else 2 - k.
(* imageLoad: component k *)
Definition texel (img : Z -> Z) (p : Z * Z) (k : Z) : Z :=
  if (0 <=? fst p) && (fst p <? fst size) && (0 <=? snd p) && (snd p <? snd size) then img (place size p * channels c + swap k) else 0.
(* the components that are compared *)
Definition lanes : list Z := if channels c =? 4 then [0; 1; 2] else [0].

(* LBSP.cpp lines 407-422 and 429-444: bit, column and row *)
Definition dbcross : list (Z * (Z * Z)) :=
  [(15, (-1, 1)); (14, (1, -1)); (13, (1, 1)); (12, (-1, -1)); (11, (1, 0)); (10, (0, -1)); (9, (-1, 0)); (8, (0, 1));
   (7, (-2, -2)); (6, (2, 2)); (5, (2, -2)); (4, (-2, 2)); (3, (0, 2)); (2, (0, -2)); (1, (2, 0)); (0, (-2, 0))].
Definition lbsp (img : Z -> Z) (t ref : Z) (p : Z * Z) (k : Z) : Z :=
  fold_right (fun o acc => Z.shiftl (if t <? Z.abs (texel img (fst p + fst (snd o), snd p + snd (snd o)) k - ref) then 1 else 0) (fst o) + acc) 0 dbcross.
(* bitCount *)
Definition bit_distance (a b : Z) : Z := count (fun i => Z.testbit (Z.lxor a b) i) (zrange 0 32).
Definition sum (l : list Z) : Z := fold_right Z.add 0 l.

(* lines 198-220: colours b and textures d of a sample, by component *)
Definition good_sample (img : Z -> Z) (p : Z * Z) (b d : Z -> Z) : bool :=
  let cd k := Z.abs (texel img p k - b k) in
  let td k := bit_distance (lbsp img (lut_of c (b k)) (b k) p k) (d k) in
  if channels c =? 4 then
    forallb (fun k => cd k <=? colour_threshold c * 3 / 2) lanes && (sum (map cd lanes) <=? colour_threshold c * 3) &&
    forallb (fun k => td k <=? texture_threshold c * 3 / 2) lanes && (sum (map td lanes) <=? texture_threshold c * 3)
  else (cd 0 <=? colour_threshold c / 2) && (td 0 <=? texture_threshold c).

(* lines 234-235 and 241-242: stores to the sample at i for the colour and at j for the texture. uvec4(..., 0) *)
Definition stores_to (img : Z -> Z) (p : Z * Z) (index : Z) (i j : N) : list (Z * Z) :=
  map (fun k => (gpu_colour index (N.to_nat i) k, texel img p k)) lanes ++ (if channels c =? 4 then [(gpu_colour index (N.to_nat i) 3, 0)] else []) ++
  map (fun k => (gpu_texture index (N.to_nat j) k, lbsp img (lut_of c (texel img p k)) (texel img p k) p k)) lanes ++ (if channels c =? 4 then [(gpu_texture index (N.to_nat j) 3, 0)] else []).
(* lines 233-244; r are the numbers that urand() gives *)
Definition stores (img : Z -> Z) (rate : N) (p : Z * Z) (r : nat -> N) : list (Z * Z) :=
  let m := N.of_nat (samples c) in
  let own := (r 0%nat mod rate =? 0)%N in
  let o := if own then 3%nat else 1%nat in
  (if own then stores_to img p (model_index p) (r 1%nat mod m)%N (r 2%nat mod m)%N else []) ++
  (if (r o mod rate =? 0)%N then stores_to img p (model_index (rand_neighbour 0 (fst size) (snd size) p (r (o + 1)%nat))) (r (o + 2)%nat mod m)%N (r (o + 3)%nat mod m)%N else []).

(* where an invocation is: words of the sample that it is reading, samples read, nGoodSamplesCount, stores done *)
Record place_in := { partial : list Z; read : nat; good : nat; stored : nat }.
Definition fresh : place_in := {| partial := []; read := 0; good := 0; stored := 0 |}.
Record world := { mem : Z -> Z; at_ : Z * Z -> place_in }.
(* the loop of lines 197-226 goes on *)
Definition reading (l : place_in) : bool := (read l <? samples c)%nat && negb ((0 <? read l)%nat && (required c <=? good l)%nat).
Definition next_word (p : Z * Z) (l : place_in) : Z :=
  let j := length (partial l) in
  if (j <? length lanes)%nat then gpu_colour (model_index p) (read l) (Z.of_nat j) else gpu_texture (model_index p) (read l) (Z.of_nat (j - length lanes)).
Definition put {A} (f : Z * Z -> A) (p : Z * Z) (v : A) : Z * Z -> A := fun q => if (fst q =? fst p) && (snd q =? snd p) then v else f q.
(* one access by the invocation of p *)
Definition step (img : Z -> Z) (rate : N) (rnd : Z * Z -> nat -> N) (w : world) (p : Z * Z) : world :=
  let l := at_ w p in
  if reading l then
    let words := partial l ++ [mem w (next_word p l)] in
    let l' := if (length words <? 2 * length lanes)%nat then {| partial := words; read := read l; good := good l; stored := stored l |}
      else {| partial := []; read := S (read l); stored := stored l;
              good := if good_sample img p (fun k => nth (Z.to_nat k) words 0) (fun k => nth (length lanes + Z.to_nat k) words 0) then S (good l) else good l |} in
    {| mem := mem w; at_ := put (at_ w) p l' |}
  else if (good l <? required c)%nat then w
  else match nth_error (stores img rate p (rnd p)) (stored l) with
       | Some (a, v) => {| mem := fun a' => if a' =? a then v else mem w a'; at_ := put (at_ w) p {| partial := partial l; read := read l; good := good l; stored := S (stored l) |} |}
       | None => w
       end.
Definition run (img : Z -> Z) (rate : N) (rnd : Z * Z -> nat -> N) (sched : list (Z * Z)) (m : Z -> Z) : world := fold_left (step img rate rnd) sched {| mem := m; at_ := fun _ => fresh |}.
Definition finished (img : Z -> Z) (rate : N) (rnd : Z * Z -> nat -> N) (w : world) (p : Z * Z) : Prop :=
  reading (at_ w p) = false /\ ((good (at_ w p) < required c)%nat \/ stored (at_ w p) = length (stores img rate p (rnd p))).
(* lines 229-231 and 273, before the blur: whether the mask is set *)
Definition foreground (w : world) (p : Z * Z) : bool := (good (at_ w p) <? required c)%nat.
(* one frame with a learning rate, given rounded up. roi: the pixels of the region, all within the frame *)
Definition frame (roi : Z * Z -> Prop) (img : Z -> Z) (m : Z -> Z) (mask : Z * Z -> bool) (m' : Z -> Z) : Prop :=
  exists rate rnd sched, (0 < rate)%N /\ (forall p, In p sched -> roi p) /\ (forall p, roi p -> finished img rate rnd (run img rate rnd sched m) p) /\
    m' = mem (run img rate rnd sched m) /\ forall p, roi p -> mask p = foreground (run img rate rnd sched m) p.
(* several frames, and their masks *)
Inductive frames (roi : Z * Z -> Prop) : list ((Z -> Z) * (Z * Z -> bool)) -> (Z -> Z) -> (Z -> Z) -> Prop :=
| frames_none : forall m, frames roi [] m m
| frames_next : forall img mask l m m1 m2, frame roi img m mask m1 -> frames roi l m1 m2 -> frames roi ((img, mask) :: l) m m2.

(* refreshModel on the host. The buffer and how many random numbers were used *)
Record host := { words : Z -> Z; used : nat }.
Definition write_all (m : Z -> Z) (l : list (Z * Z)) : Z -> Z := fold_left (fun m av => fun a => if a =? fst av then snd av else m a) l m.
(* lines 63-90, one sample. The neighbours are those of channel ch, the reference is of channel swap ch *)
Definition refresh_one (rnd : nat -> Z) (force : bool) (mask : Z -> bool) (seen : Z -> Z) (p : Z * Z) (st : host) (i : nat) : option host :=
  let q := getSamplePosition_7x7_std2 (rnd (used st)) p 2 size in
  match (if force then Some false else get (fst size * snd size) mask (place size q)) with
  | None => None
  | Some true => Some {| words := words st; used := S (used st) |}
  | Some false =>
    let s := Nat.modulo i (samples c) in
    match all (map (fun ch => bind (get (total c size) seen (place size q * channels c + swap ch)) (fun v =>
                 bind (lookup c size seen q ch) (fun vals => bind (texture c vals v) (fun d => Some [(host_colour p s ch, v); (host_texture p s ch, d)])))) (zrange 0 (channels c))) with
    | None => None
    | Some l => Some {| words := write_all (words st) (concat l); used := S (used st) |}
    end
  end.
Fixpoint iter_opt {S A} (f : S -> A -> option S) (l : list A) (st : S) : option S :=
  match l with [] => Some st | a :: l' => match f st a with Some st' => iter_opt f l' st' | None => None end end.
(* lines 56-95: the mask is looked up at nRowIdx*m_oFrameSize.height+nColIdx *)
Definition refresh (rnd : nat -> Z) (force : bool) (mask : Z -> bool) (seen : Z -> Z) (start num : nat) (st : host) : option host :=
  iter_opt (fun st (yx : Z * Z) =>
    match (if force then Some false else get (fst size * snd size) mask (snd yx + fst yx * snd size)) with
    | None => None
    | Some true => Some st
    | Some false => iter_opt (refresh_one rnd force mask seen (snd yx, fst yx)) (seq start num) st
    end) (grid 0 (snd size) 0 (fst size)) st.
(* initialize_gl, lines 102-122; seen is m_oLastColorFrame, which is black outside of the region *)
Definition initialized (rnd : nat -> Z) (seen : Z -> Z) : option host := refresh rnd true (fun _ => false) seen 0 (samples c) {| words := fun _ => 0; used := 0 |}.

(* getBackgroundImage, lines 331-360: the sums are exact in single precision for fewer than 65536 samples. Channel swap ch of the image *)
Definition background (m : Z -> Z) (p : Z * Z) (ch : Z) : Z := sum (map (fun s => m (host_colour p s ch)) (seq 0 (samples c))) / nb.
End Gpu.
