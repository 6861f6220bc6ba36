(* C109: LOBSTER on the graphics card. *)
From Coq Require Import ZArith NArith List Bool Lia.
From Verif Require Import Lib.Grid Spec.Lbsp Spec.Subsense Spec.Vibe Model.Lobster Spec.Lobster Model.GpuLobster Spec.GpuLobster Proofs.Lobster Proofs.GpuLobster.
Import ListNotations.
Open Scope Z_scope.

(* the settings of the library, with few samples *)
Definition grey_config : config := {| channels := 1; colour_threshold := 30; texture_threshold := 4; samples := 2; required := 1; lut_of := fun v => v / 3; blur := fun _ _ => false |}.
Definition colour_config : config := {| channels := 4; colour_threshold := 30; texture_threshold := 4; samples := 2; required := 1; lut_of := fun v => v / 3; blur := fun _ _ => false |}.
Example C109_ex_fits : fits grey_config (5, 5) /\ fits colour_config (1920, 1080).
Proof. repeat split; cbn; lia. Qed.

(* The host and the shader agree where the samples of a pixel are. No two words share a place, and all are within the buffer. *)
Theorem C109_layout c size p s ch : fits c size -> in_image size p -> (s < samples c)%nat -> 0 <= ch < channels c ->
  gpu_colour c (model_index size p) s ch = host_colour c size p s ch /\ gpu_texture c (model_index size p) s ch = host_texture c size p s ch /\
  0 <= host_colour c size p s ch < model_size c size /\ 0 <= host_texture c size p s ch < model_size c size /\
  forall p' s' ch', in_image size p' -> (s' < samples c)%nat -> 0 <= ch' < channels c ->
    host_colour c size p s ch <> host_texture c size p' s' ch' /\
    (host_colour c size p s ch = host_colour c size p' s' ch' -> p = p' /\ s = s' /\ ch = ch') /\
    (host_texture c size p s ch = host_texture c size p' s' ch' -> p = p' /\ s = s' /\ ch = ch').
Proof. exact (layout c size p s ch). Qed.
Print Assumptions C109_layout.

(* The shader computes the descriptor of each component, for any reference and threshold: bit by bit as on the host. *)
Theorem C109_texture c size img t ref p k : inner size p ->
  is_descriptor (around (channels c) size img p (swap c k)) ref t (lbsp c size img t ref p k).
Proof. exact (lbsp_descriptor c size img t ref p k). Qed.
Print Assumptions C109_texture.

(* However the invocations interleave: a pixel whose neighbours are all foreground is background exactly if enough of its samples resemble it. *)
Theorem C109_decision c size (roi : Z * Z -> Prop) img m mask m' p : fits c size -> (forall q, roi q -> inner size q) -> frame c size roi img m mask m' -> roi p ->
  (forall q, roi q -> q <> p -> within 1 p q -> mask q = true) -> (forall s ch, (s < samples c)%nat -> compared c ch -> 0 <= textures_of c size m p s ch < 2 ^ 16) ->
  (mask p = false <->
   at_least (required c) (fun s => similar (channels c) (colour_threshold c) (texture_threshold c) (lut_of c) size img p (colours_of c size m p s) (textures_of c size m p s)) (seq 0 (samples c))).
Proof. exact (fun F => frame_decision c size F roi img m mask m' p). Qed.
Print Assumptions C109_decision.

(* a frame that is like all samples, of a region of one pixel *)
Definition alike : Z -> Z := fun a => if a mod 4 <? 2 then 100 else 0.
Example C109_ex_frame : frame grey_config (5, 5) (eq (2, 2)) (fun _ => 110) alike (fun _ => false) alike /\ inner (5, 5) (2, 2) /\ forall s ch, (s < 2)%nat -> compared grey_config ch -> 0 <= textures_of grey_config (5, 5) alike (2, 2) s ch < 2 ^ 16.
Proof.
  split; [|split; [unfold inner; cbn [fst snd]; lia|]].
  - exists 2%N, (fun _ _ => 1%N), [(2, 2); (2, 2)]. split; [reflexivity|]. split; [intros p [<-|[<-|[]]]; reflexivity|]. split; [intros p <-; split; [vm_compute; reflexivity|right; vm_compute; reflexivity]|]. split; [reflexivity|]. intros p <-. vm_compute. reflexivity.
  - intros s ch _ _. unfold textures_of, alike. destruct (_ <? 2); lia.
Qed.

(* A word of the model is as before, or was stored by a background pixel at most one pixel away: its colour or the descriptor of it. The fourth component is zero. *)
Theorem C109_provenance c size (roi : Z * Z -> Prop) img m mask m' p s ch : fits c size -> (forall q, roi q -> inner size q) -> frame c size roi img m mask m' ->
  in_image size p -> (s < samples c)%nat -> 0 <= ch < channels c ->
  (m' (host_colour c size p s ch) = m (host_colour c size p s ch) \/
   exists q, roi q /\ mask q = false /\ within 1 p q /\ m' (host_colour c size p s ch) = if ch =? 3 then 0 else value (channels c) size img q (swap c ch)) /\
  (m' (host_texture c size p s ch) = m (host_texture c size p s ch) \/
   exists q, roi q /\ mask q = false /\ within 1 p q /\ if ch =? 3 then m' (host_texture c size p s ch) = 0
     else is_descriptor (Lobster.around (channels c) size img q (swap c ch)) (value (channels c) size img q (swap c ch)) (lut_of c (value (channels c) size img q (swap c ch))) (m' (host_texture c size p s ch))).
Proof. exact (fun F => frame_provenance c size F roi img m mask m' p s ch). Qed.
Print Assumptions C109_provenance.
(* Nothing else is stored: neither between the samples nor when all pixels are foreground. *)
Theorem C109_elsewhere c size (roi : Z * Z -> Prop) img m mask m' a : fits c size -> (forall q, roi q -> inner size q) -> frame c size roi img m mask m' ->
  (forall p, in_image size p -> ~ owns c size p a) \/ (forall q, roi q -> mask q = true) -> m' a = m a.
Proof. exact (fun F RI FR H => match H with or_introl N => frame_elsewhere c size F roi img m mask m' a RI FR N | or_intror A => frame_all_foreground c size F roi img m mask m' a RI FR A end). Qed.
Print Assumptions C109_elsewhere.

(* Each invocation ends: after two accesses for each sample and component, and its stores. *)
Theorem C109_ends c size img rate rnd sched m p :
  (2 * length (lanes c) * samples c + length (stores c size img rate p (rnd p)) <= length (filter (fun q => (fst q =? fst p)%Z && (snd q =? snd p)%Z) sched))%nat ->
  finished c size img rate rnd (run c size img rate rnd sched m) p.
Proof. exact (run_ends c size img rate rnd sched m p). Qed.
Print Assumptions C109_ends.

(* Initialization does not fault. Each sample is taken at one point: of the region's part of the image, and near the pixel.
   The texture of component ch is of the neighbours in channel ch, compared with the value in the channel that component ch stands for. *)
Theorem C109_initial c size rnd seen : fits c size -> (forall k, 0 <= rnd k) -> byte_image seen -> 5 <= fst size -> 5 <= snd size ->
  exists st, initialized c size rnd seen = Some st /\ forall p s, in_image size p -> (s < samples c)%nat -> exists q, inner size q /\ (inner size p -> within 3 p q) /\ forall ch, 0 <= ch < channels c ->
    words st (host_colour c size p s ch) = value (channels c) size seen q (swap c ch) /\
    is_descriptor (Lobster.around (channels c) size seen q ch) (value (channels c) size seen q (swap c ch)) (lut_of c (value (channels c) size seen q (swap c ch))) (words st (host_texture c size p s ch)).
Proof. exact (initial_samples c size rnd seen). Qed.
Print Assumptions C109_initial.

(* In a uniform scene, grey or of one channel, a pixel whose surroundings are in the region stays background for ever; the background image there is the scene. *)
Theorem C109_static c size (roi : Z * Z -> Prop) rnd seen st tint l m' p : fits c size -> (forall k, 0 <= rnd k) -> byte_image seen -> 5 <= fst size -> 5 <= snd size ->
  (forall q, roi q -> inner size q) -> roi p -> 0 <= colour_threshold c -> 0 <= texture_threshold c -> (required c <= samples c)%nat -> (forall v, 0 <= lut_of c v) ->
  (forall k, compared c k -> Z.abs (tint k - tint (swap c k)) <= lut_of c (tint (swap c k))) ->
  (forall q ch, in_image size q -> within 5 p q -> 0 <= ch < channels c -> value (channels c) size seen q ch = tint ch) ->
  initialized c size rnd seen = Some st -> (forall e, In e l -> uniform (channels c) size tint (fst e)) -> GpuLobster.frames c size roi l (words st) m' ->
  (forall e, In e l -> snd e p = false) /\ forall ch, compared c ch -> background c size m' p ch = tint (swap c ch).
Proof. exact (static c size roi rnd seen st tint l m' p). Qed.
Print Assumptions C109_static.

(* The texture of samples at initialization mixes red and blue: in a uniform scene in which one of them exceeds the other by more than the threshold, all pixels are foreground in all frames
   and the model is never updated, although the scene is the one that the model was made from. *)
Theorem C109_coloured_refuted c size rnd seen st tint k l m' : fits c size -> (forall k, 0 <= rnd k) -> byte_image seen -> 5 <= fst size -> 5 <= snd size ->
  channels c = 4 -> k = 0 \/ k = 2 -> 0 <= tint k -> 0 <= lut_of c (tint (2 - k)) < tint (2 - k) - tint k -> texture_threshold c * 3 / 2 < 16 -> (0 < required c)%nat ->
  (forall q ch, in_image size q -> 0 <= ch < 4 -> value 4 size seen q ch = if (2 <=? fst q) && (fst q <? fst size - 2) && (2 <=? snd q) && (snd q <? snd size - 2) then tint ch else 0) ->
  initialized c size rnd seen = Some st -> (forall e, In e l -> uniform 4 size tint (fst e)) -> GpuLobster.frames c size (inner size) l (words st) m' ->
  (forall e p, In e l -> inner size p -> snd e p = true) /\ forall a, m' a = words st a.
Proof. exact (coloured c size rnd seen st tint k l m'). Qed.
Print Assumptions C109_coloured_refuted.

(* pure red with the settings of the library: the last channel is red in the frame, the first in the model *)
Definition red (ch : Z) : Z := if ch =? 2 then 255 else 0.
Definition red_scene (i : Z) : Z := red (i mod 4).
Definition red_seen (i : Z) : Z := if i / 4 =? 12 then red (i mod 4) else 0.
Example C109_ex_coloured : uniform 4 (5, 5) red red_scene /\ byte_image red_seen /\
  (forall q ch, in_image (5, 5) q -> 0 <= ch < 4 -> value 4 (5, 5) red_seen q ch = if (2 <=? fst q) && (fst q <? 5 - 2) && (2 <=? snd q) && (snd q <? 5 - 2) then red ch else 0) /\
  0 <= lut_of colour_config (red (2 - 0)) < red (2 - 0) - red 0 /\ texture_threshold colour_config * 3 / 2 < 16 /\
  (exists st, initialized colour_config (5, 5) (fun _ => 0) red_seen = Some st) /\ forall m, exists mask m', GpuLobster.frames colour_config (5, 5) (inner (5, 5)) [(red_scene, mask)] m m'.
Proof.
  assert (IX : forall x y ch, 0 <= ch < 4 -> (((5 * y + x) * 4 + ch) mod 4 = ch /\ ((5 * y + x) * 4 + ch) / 4 = 5 * y + x)). { intros x y ch C. rewrite Z.add_comm, Z.mod_add, Z.div_add by lia. rewrite Z.mod_small, Z.div_small by lia. lia. }
  assert (BR : forall ch, 0 <= red ch <= 255) by (intro ch; unfold red; destruct (ch =? 2); lia).
  assert (BS : byte_image red_seen) by (intro i; unfold red_seen; destruct (i / 4 =? 12); [apply BR|lia]).
  split; [intros [x y] ch P C; unfold value, red_scene; cbn [fst snd]; rewrite (proj1 (IX x y ch C)); reflexivity|]. split; [exact BS|]. split; [|split; [vm_compute; split; congruence|split; [reflexivity|split]]].
  - intros [x y] ch P C. unfold in_image in P. cbn [fst snd] in P. unfold value, red_seen. cbn [fst snd]. destruct (IX x y ch C) as (-> & ->). destruct (Z.leb_spec 2 x), (Z.ltb_spec x (5 - 2)), (Z.leb_spec 2 y), (Z.ltb_spec y (5 - 2)), (Z.eqb_spec (5 * y + x) 12); cbn [andb]; try reflexivity; exfalso; lia.
  - destruct (C109_initial colour_config (5, 5) (fun _ => 0) red_seen) as (st & E & _); [repeat split; cbn; lia|intro; lia|exact BS|cbn; lia|cbn; lia|]. exists st. exact E.
  - intro m. eexists _, _. eapply frames_next; [|apply frames_none]. exists 2%N, (fun _ _ => 1%N), (repeat (2, 2) 12). split; [reflexivity|]. split; [intros p I; apply repeat_spec in I; subst; unfold inner; cbn [fst snd]; lia|]. split; [|split; [reflexivity|reflexivity]].
    intros [x y] I. unfold inner in I. cbn [fst snd] in I. replace x with 2 by lia. replace y with 2 by lia. apply C109_ends. vm_compute. repeat constructor.
Qed.

(* Refreshing the background only: for frames taller than wide, the mask is read outside of its buffer, whatever it holds. *)
Theorem C109_tall_refuted c size rnd mask seen start num st : fits c size -> fst size < snd size -> refresh c size rnd false mask seen start num st = None.
Proof. exact (fun F => refresh_tall c size F rnd mask seen start num st). Qed.
Print Assumptions C109_tall_refuted.

(* The mean of the samples is between the lowest and the highest of them. *)
Theorem C109_image c size m p ch lo hi : fits c size -> (forall s, (s < samples c)%nat -> lo <= m (host_colour c size p s ch) <= hi) -> lo <= background c size m p ch <= hi.
Proof. exact (fun F => background_bounds c size F m p ch lo hi). Qed.
Print Assumptions C109_image.

(* A frame wider than tall, with one foreground pixel: it is refreshed, and another one is not, as the mask is read elsewhere. *)
Theorem C109_mask_refuted : exists c size mask seen st p p', fits c size /\ refresh c size (fun _ => 0) false mask seen 0 (samples c) {| words := fun _ => 0; used := 0 |} = Some st /\ byte_image seen /\
  in_image size p /\ (forall q, in_image size q -> mask (place size q) = true <-> q = p) /\ words st (host_colour c size p 0 0) = 200 /\
  in_image size p' /\ p' <> p /\ words st (host_colour c size p' 0 0) = 0.
Proof. exact mask_elsewhere. Qed.
Print Assumptions C109_mask_refuted.

(* The colour and the texture go to samples chosen separately: a sample of the model may combine what was never seen together. *)
Theorem C109_pairs_refuted : exists c size (roi : Z * Z -> Prop) img m mask m' p, fits c size /\ (forall q, roi q -> inner size q) /\ frame c size roi img m mask m' /\ roi p /\
  ~ ((m' (host_colour c size p 0 0) = m (host_colour c size p 0 0) /\ m' (host_texture c size p 0 0) = m (host_texture c size p 0 0)) \/
     exists q, roi q /\ m' (host_colour c size p 0 0) = value (channels c) size img q 0 /\
       is_descriptor (Lobster.around (channels c) size img q 0) (value (channels c) size img q 0) (lut_of c (value (channels c) size img q 0)) (m' (host_texture c size p 0 0))).
Proof. exact pairs. Qed.
Print Assumptions C109_pairs_refuted.
