(* C95: the packets of image and video work batches show the images of the data set, in any order of requests. *)
From Coq Require Import ZArith QArith List Bool Lia.
From Verif Require Import Model.Producer Spec.Producer Proofs.Producer.
Import ListNotations.
Open Scope Z_scope.

(* whatever was requested before, a frame is shown if its type can be converted, and refused otherwise *)
Theorem C95_video_frame : forall grey scale aligned d p s r is i f, parse_video scale aligned d = Some (p, s) -> src p = Video r -> Forall is_index is -> is_index i ->
  i < count p -> nth_error (frames r) (Z.to_nat i) = Some f -> well_formed f ->
  (convertible (input_info p) f -> exists o, snd (get_input grey p (gets grey p s is) i) = Packet (Some o) /\ shows grey (input_info p) f o) /\
  (~ convertible (input_info p) f -> snd (get_input grey p (gets grey p s is) i) = Fails).
Proof.
  intros grey scale aligned d p s r is i f E V F I C N W. rewrite (video_frame grey scale aligned d p s r is i f) by auto.
  destruct (parse_video_new _ _ _ _ _ E) as (_ & _ & x & X & _). destruct (info_of_some _ _ _ _ X) as (h & w & S & H1 & H2 & _).
  unfold info_at. replace (count p <=? i) with false by (symmetry; apply Z.leb_gt; lia). apply (redirect_cases grey _ f h w); auto.
Qed.
Print Assumptions C95_video_frame.

(* frames with the type of the first are never refused *)
Theorem C95_video_uniform : forall grey scale aligned d p s r is i f f0, parse_video scale aligned d = Some (p, s) -> src p = Video r -> Forall is_index is -> is_index i ->
  i < count p -> nth_error (frames r) (Z.to_nat i) = Some f -> well_formed f -> nth_error (frames r) 0 = Some f0 -> depth f = depth f0 -> chans f = chans f0 -> usual_depth (depth f0) ->
  exists o, snd (get_input grey p (gets grey p s is) i) = Packet (Some o) /\ shows grey (input_info p) f o.
Proof.
  intros grey scale aligned d p s r is i f f0 E V F I C N W N0 D K U. eapply C95_video_frame; eauto.
  destruct (parse_video_new _ _ _ _ _ E) as (_ & _ & x & X & Y). rewrite V in Y. rewrite N0 in Y. assert (x = f0) by congruence. subst x.
  eapply like_first; eauto.
Qed.
Print Assumptions C95_video_uniform.

(* the announced type and size are those of the first frame, scaled to the nearest size *)
Theorem C95_info : forall scale aligned d p s, parse_video scale aligned d = Some (p, s) ->
  exists f h w, match src p with Video r => nth_error (frames r) 0 = Some f | Files fs => nth_error fs 0 = Some (Some f) end /\
    isize (input_info p) = Some (h, w) /\ 0 < h /\ 0 < w /\
    (inject_Z h - (1 # 2) <= inject_Z (rows f) * scale <= inject_Z h + (1 # 2))%Q /\ (inject_Z w - (1 # 2) <= inject_Z (cols f) * scale <= inject_Z w + (1 # 2))%Q /\
    idepth (input_info p) = depth f /\ (aligned = true -> chans f = 3 -> ichans (input_info p) = 4) /\ ((aligned = false \/ chans f <> 3) -> ichans (input_info p) = chans f).
Proof.
  intros scale aligned d p s E. destruct (parse_video_new _ _ _ _ _ E) as (_ & _ & f & X & Y). destruct (info_of_some _ _ _ _ X) as (h & w & S & H1 & H2 & A & B & D & C).
  exists f, h, w. split; [ exact Y |]. subst h w. do 3 (split; [ assumption |]). split; [ apply scaled_half |]. split; [ apply scaled_half |]. split; [ exact D |]. rewrite C. split.
  - intros -> ->. reflexivity.
  - intros [-> | Q]; [ rewrite andb_false_r; reflexivity |]. apply Z.eqb_neq in Q. rewrite Q. reflexivity.
Qed.
Print Assumptions C95_info.

(* the packets of a directory of images do not depend on earlier requests either: each file is shown, refused, or, if it cannot be read, an error *)
Theorem C95_files : forall grey scale aligned d p s fs is i, parse_video scale aligned d = Some (p, s) -> src p = Files fs -> Forall is_index is -> is_index i -> i < count p ->
  match file_at fs i with
  | Some f => well_formed f -> (convertible (input_info p) f -> exists o, snd (get_input grey p (gets grey p s is) i) = Packet (Some o) /\ shows grey (input_info p) f o) /\
                               (~ convertible (input_info p) f -> snd (get_input grey p (gets grey p s is) i) = Fails)
  | None => snd (get_input grey p (gets grey p s is) i) = Fails
  end.
Proof.
  intros grey scale aligned d p s fs is i E V F I C. rewrite (files_packet grey scale aligned d p s fs is i) by auto.
  destruct (parse_video_new _ _ _ _ _ E) as (_ & _ & x & X & _). destruct (info_of_some _ _ _ _ X) as (h & w & S & H1 & H2 & _).
  unfold info_at. replace (count p <=? i) with false by (symmetry; apply Z.leb_gt; lia).
  destruct (file_at fs i) as [f|]; [ intro W; apply (redirect_cases grey _ f h w); auto |]. cbn [redirect]. rewrite S. reflexivity.
Qed.
Print Assumptions C95_files.

(* requests behind the last frame give an empty packet if the container counts its frames correctly *)
Theorem C95_past_end : forall grey scale aligned d p s r is i, parse_video scale aligned d = Some (p, s) -> src p = Video r -> count p = Z.of_nat (length (frames r)) -> stays_out r ->
  Forall is_index is -> is_index i -> count p <= i -> snd (get_input grey p (gets grey p s is) i) = Packet None.
Proof. exact past_end. Qed.
Print Assumptions C95_past_end.

(* if it counts too many, each missing frame is an error, in whatever order *)
Theorem C95_missing : forall grey scale aligned d p s r is i, parse_video scale aligned d = Some (p, s) -> src p = Video r -> stays_out r -> Forall is_index is -> is_index i ->
  Z.of_nat (length (frames r)) <= i < count p -> snd (get_input grey p (gets grey p s is) i) = Fails.
Proof. exact missing. Qed.
Print Assumptions C95_missing.

(* if it counts too few, a request behind the announced end is an error too, not an empty packet *)
Theorem C95_past_end_refuted : forall grey scale aligned d p s r is i f, parse_video scale aligned d = Some (p, s) -> src p = Video r -> Forall is_index is -> is_index i ->
  count p <= i -> nth_error (frames r) (Z.to_nat i) = Some f -> snd (get_input grey p (gets grey p s is) i) = Fails.
Proof.
  intros grey scale aligned d p s r is i f E V F I C N. rewrite (video_frame grey scale aligned d p s r is i f) by auto.
  unfold info_at. apply Z.leb_le in C. rewrite C. apply no_info_fails.
Qed.
Print Assumptions C95_past_end_refuted.

(* a small video: frame k is a 1x2 image of the value k *)
Definition ex_frame (k : Z) : image := Image 1 2 0 3 (fun _ x => [k; x; 7]).
Definition ex_reader : reader := Reader [ex_frame 0; ex_frame 1; ex_frame 2] (fun _ => 3).
Definition ex_grey (l : list Z) : Z := hd 0 l.

(* one request for the largest index makes the next one for frame 0 fail: the expected index has wrapped around to 0, so the reader is not moved *)
Theorem C95_wrap_refuted : exists p s r, parse_video 1 true (Movie r 3) = Some (p, s) /\ src p = Video r /\ stays_out r /\
  (exists o, snd (get_input ex_grey p (gets ex_grey p s [1]) 0) = Packet (Some o)) /\ snd (get_input ex_grey p (gets ex_grey p s [1; size_max]) 0) = Fails.
Proof.
  exists (Producer (Video ex_reader) 3 (Info (Some (1, 2)) 0 4)), (State (Cursor 0 0) size_max None), ex_reader.
  split; [ reflexivity |]. split; [ reflexivity |]. split; [ unfold stays_out; cbn; lia |]. split; [ eexists; reflexivity | reflexivity ].
Qed.
Print Assumptions C95_wrap_refuted.

(* image sets: the readable files in order, each with its own type and size *)
Theorem C95_image_list : forall scale aligned fs g, parse_images scale aligned fs = Some g ->
  paths g = map Some (readable fs) /\ Forall2 (fun f i => info_of scale aligned f = Some i) (readable fs) (infos g) /\ (constant g = true <-> all_same (infos g)).
Proof. exact images_spec. Qed.
Print Assumptions C95_image_list.

(* unreadable files among others are no error *)
Theorem C95_image_parse : forall scale aligned fs, readable fs <> [] -> (forall f, In f (readable fs) -> exists i, info_of scale aligned f = Some i) -> exists g, parse_images scale aligned fs = Some g.
Proof. exact parse_images_some. Qed.
Print Assumptions C95_image_parse.

Theorem C95_image_shown : forall grey scale aligned fs g i f, parse_images scale aligned fs = Some g -> 0 <= i -> nth_error (readable fs) (Z.to_nat i) = Some f -> well_formed f ->
  (aligned = true -> chans f = 3 -> usual_depth (depth f)) ->
  exists o, load_image grey g i = Packet (Some o) /\ shows grey (image_info g i) f o /\ info_of scale aligned f = Some (image_info g i).
Proof.
  intros grey scale aligned fs g i f E P N W U. destruct (image_shown grey scale aligned fs g i f E P N W U) as (o & O1 & O2). exists o. split; [ exact O1 |]. split; [ exact O2 |].
  apply (image_at scale aligned fs g i f); auto.
Qed.
Print Assumptions C95_image_shown.

Theorem C95_image_past : forall grey scale aligned fs g i, parse_images scale aligned fs = Some g -> Z.of_nat (length (readable fs)) <= i -> load_image grey g i = Packet None.
Proof. exact image_past. Qed.
Print Assumptions C95_image_past.

(* ground truth: an empty packet where there is none, and otherwise the file of the table *)
Theorem C95_gt_none : forall grey g i, length (gt_files g) = length (gt_infos g) -> (table g i = None \/ exists k, table g i = Some k /\ Z.of_nat (length (gt_files g)) <= k) -> load_gt grey g i = Packet None.
Proof. exact gt_none. Qed.
Print Assumptions C95_gt_none.
Theorem C95_gt_shown : forall grey scale aligned g i k f, length (gt_files g) = length (gt_infos g) -> table g i = Some k -> 0 <= k -> nth_error (gt_files g) (Z.to_nat k) = Some (Some f) -> well_formed f ->
  (forall d, info_of scale aligned f = Some (nth (Z.to_nat k) (gt_infos g) d)) -> (aligned = true -> chans f = 3 -> usual_depth (depth f)) ->
  exists o, load_gt grey g i = Packet (Some o) /\ shows grey (gt_info g i) f o.
Proof. exact gt_shown. Qed.
Print Assumptions C95_gt_shown.

(* half the size, after an unordered history *)
Definition ex_wide (k : Z) : image := Image 2 4 0 3 (fun y x => [k; y; x]).
Definition ex_movie : reader := Reader [ex_wide 0; ex_wide 1; Image 2 4 0 1 (fun _ _ => [5])] (fun _ => 3).
Example C95_ex_video : exists p s, parse_video (1 # 2) true (Movie ex_movie 3) = Some (p, s) /\ input_info p = Info (Some (1, 2)) 0 4 /\
  (exists o, snd (get_input ex_grey p (gets ex_grey p s [2; 7; 0; 0]) 1) = Packet (Some o) /\ map (px o 0) [0; 1] = [[1; 0; 0; 255]; [1; 0; 2; 255]]) /\
  snd (get_input ex_grey p (gets ex_grey p s [1; 0]) 2) = Fails /\ snd (get_input ex_grey p (gets ex_grey p s [1; 0]) 3) = Packet None.
Proof. eexists _, _. split; [ reflexivity |]. split; [ reflexivity |]. split; [ eexists; split; reflexivity |]. split; reflexivity. Qed.
Example C95_ex_hyps : stays_out ex_movie /\ well_formed (ex_wide 1) /\ convertible (Info (Some (1, 2)) 0 4) (ex_wide 1) /\ ~ convertible (Info (Some (1, 2)) 0 4) (Image 2 4 0 1 (fun _ _ => [5])).
Proof.
  split; [ unfold stays_out; cbn; lia |]. split; [ unfold well_formed; cbn; split; [ lia |]; split; [ lia |]; split; [ lia |]; intros; reflexivity |]. split; [ unfold convertible, usual_depth; cbn; lia |]. unfold convertible. cbn. lia.
Qed.
Example C95_ex_counts : exists p s q t, parse_video 1 true (Movie ex_reader 5) = Some (p, s) /\ snd (get_input ex_grey p s 4) = Fails /\
  parse_video 1 true (Movie ex_reader 2) = Some (q, t) /\ snd (get_input ex_grey q t 2) = Fails.
Proof. eexists _, _, _, _. repeat split. Qed.
Example C95_ex_files : exists p s, parse_video 1 false (Directory [File (Some (ex_frame 3)) None; File None None; File (Some (ex_frame 4)) None]) = Some (p, s) /\
  snd (get_input ex_grey p s 1) = Fails /\ exists o, snd (get_input ex_grey p (gets ex_grey p s [1; 0]) 2) = Packet (Some o) /\ px o 0 1 = [4; 1; 7].
Proof. eexists _, _. split; [ reflexivity |]. split; [ reflexivity |]. eexists; split; reflexivity. Qed.
Example C95_ex_images : exists g, parse_images 1 true [None; Some (ex_frame 3); None; None; Some (ex_wide 4)] = Some g /\ constant g = false /\ length (paths g) = 2%nat /\
  exists o, load_image ex_grey g 1 = Packet (Some o) /\ px o 1 3 = [4; 1; 3; 255].
Proof. eexists. split; [ reflexivity |]. split; [ reflexivity |]. split; [ reflexivity |]. eexists; split; reflexivity. Qed.
Example C95_ex_truth : let g := Truth (fun i => if i =? 10 then Some 0 else None) [Some (ex_frame 3)] [Info (Some (1, 2)) 0 3] in
  load_gt ex_grey g 9 = Packet None /\ exists o, load_gt ex_grey g 10 = Packet (Some o) /\ px o 0 1 = [3; 1; 7].
Proof. split; [ reflexivity |]. eexists; split; reflexivity. Qed.
