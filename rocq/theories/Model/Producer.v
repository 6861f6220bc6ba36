(* How packets of image and video work batches are loaded: modules/datasets/src/utils.cpp lines 314-326 (DataPrecacher::getPacket without a thread), 554-557 (getInput), 609-661 (transformImagePacket and
   getInput_redirect for loaders without arrays), 690-709 (getGT_redirect), 833-839, 857-888, 897-966 (the default video producer) and 1092-1125, 1151-1202 (the default image producer).
   A matrix is a two-dimensional image; None is an empty one. Channel values are integers. cv::imread gives the same for a file each time. From OpenCV: cvtColor to BGRA sets the largest value
   of 8-bit and 16-bit images, or 1, and rejects other depths; the weights of COLOR_BGR2GRAY are a parameter; resize with INTER_NEAREST takes the pixel below the scaled coordinates (as exact rationals) and
   fails for an empty target; cv::VideoCapture gives the frames in order from the position set by CAP_PROP_POS_FRAMES; what it does for a position that is not a frame is a parameter. *)
From Coq Require Import ZArith QArith Qround List Bool.
Import ListNotations.
Open Scope Z_scope.

Record image := Image { rows : Z; cols : Z; depth : Z; chans : Z; px : Z -> Z -> list Z }.
(* lv::MatInfo: an empty size is None *)
Record info := Info { isize : option (Z * Z); idepth : Z; ichans : Z }.
Definition no_info : info := Info None 0 1.

(* CV_8U, CV_16U and CV_32F *)
Definition opaque (d : Z) : option Z := if d =? 0 then Some 255 else if d =? 2 then Some 65535 else if d =? 5 then Some 1 else None.
Definition to_bgra (im : image) : option image :=
  match opaque (depth im) with None => None | Some a => Some (Image (rows im) (cols im) (depth im) 4 (fun y x => px im y x ++ [a])) end.
Definition to_grey (grey : list Z -> Z) (im : image) : option image :=
  match opaque (depth im) with None => None | Some _ => Some (Image (rows im) (cols im) (depth im) 1 (fun y x => [grey (px im y x)])) end.
(* cv::resize with cv::INTER_NEAREST *)
Definition resize (im : image) (h w : Z) : option image :=
  if (0 <? h) && (0 <? w) then
    Some (Image h w (depth im) (chans im) (fun y x => px im (Z.min (y * rows im / h) (rows im - 1)) (Z.min (x * cols im / w) (cols im - 1))))
  else None.

(* lines 609-639; None: OpenCV fails *)
Definition transform (grey : list Z -> Z) (i : info) (im : image) : option image :=
  let converted :=
    if (idepth i =? depth im) && negb (ichans i =? chans im) then
      if (ichans i =? 4) && (chans im =? 3) then to_bgra im
      else if (ichans i =? 1) && (chans im =? 3) then to_grey grey im
      else Some im
    else Some im in
  match converted with
  | None => None
  | Some c => match isize i with
              | Some (h, w) => if (h =? rows c) && (w =? cols c) then Some c else resize c h w
              | None => None
              end
  end.
Definition fits (i : info) (im : image) : bool :=
  (idepth i =? depth im) && (ichans i =? chans im) && match isize i with Some (h, w) => (h =? rows im) && (w =? cols im) | None => false end.

(* what a call that loads gives: a packet, possibly empty, or an exception *)
Inductive outcome := Packet (p : option image) | Fails.
(* lines 643-661 and 690-709; [is_image] says that the packet type is ImagePacket, otherwise it is UnspecifiedPacket *)
Definition redirect (grey : list Z -> Z) (is_image : bool) (i : info) (raw : option image) : outcome :=
  match raw with
  | Some im => match (if is_image then transform grey i im else Some im) with
               | Some t => if fits i t then Packet (Some t) else Fails
               | None => Fails
               end
  | None => match isize i with None => Packet None | Some _ => Fails end
  end.

(* m_voVideoReader: the frames of the file, the position, and where a seek to no frame leads *)
Record reader := Reader { frames : list image; seek : Z -> Z }.
Definition set_pos (r : reader) (p : Z) : Z := if (0 <=? p) && (p <? Z.of_nat (length (frames r))) then p else seek r p.
(* operator>> *)
Definition read (r : reader) (pos : Z) : option image * Z :=
  if 0 <=? pos then match nth_error (frames r) (Z.to_nat pos) with Some f => (Some f, pos + 1) | None => (None, pos) end else (None, pos).

(* m_voVideoReader if it is opened, otherwise m_vsInputPaths with what imread gives for each *)
Inductive source := Video (r : reader) | Files (fs : list (option image)).
Record producer := Producer { src : source; count : Z; input_info : info }.
Definition u64 (v : Z) : Z := v mod 2 ^ 64.
Definition size_max : Z := 2 ^ 64 - 1.
(* m_nNextExpectedVideoReaderFrameIdx and the position of the reader *)
Record cursor := Cursor { expected : Z; pos : Z }.
(* lines 897-912 *)
Definition raw_input (s : source) (c : cursor) (i : Z) : option image * cursor :=
  match s with
  | Files fs => (if i <? Z.of_nat (length fs) then match nth_error fs (Z.to_nat i) with Some f => f | None => None end else None, c)
  | Video r =>
    let c := if negb (expected c =? i) then Cursor (u64 (i + 1)) (set_pos r i) else Cursor (u64 (expected c + 1)) (pos c) in
    let '(f, p) := read r (pos c) in (f, Cursor (expected c) p)
  end.
(* lines 874-878 *)
Definition info_at (p : producer) (i : Z) : info := if count p <=? i then no_info else input_info p.

(* the loader: its cursor, m_nLastReqIdx and m_oLastReqPacket of the precacher *)
Record state := State { cur : cursor; last : Z; held : option image }.
(* getInput, without a precaching thread *)
Definition get_input (grey : list Z -> Z) (p : producer) (s : state) (i : Z) : state * outcome :=
  if i =? last s then (s, Packet (held s))
  else
    let '(raw, c) := raw_input (src p) (cur s) i in
    match redirect grey true (info_at p i) raw with
    | Packet im => (State c i im, Packet im)
    | Fails => (State c (last s) (held s), Fails)
    end.
Fixpoint gets (grey : list Z -> Z) (p : producer) (s : state) (is : list Z) : state :=
  match is with [] => s | i :: r => gets grey p (fst (get_input grey p s i)) r end.

(* saturate_cast<int> of a positive double without the saturation: to the nearest, ties to even *)
Definition nearest (q : Q) : Z :=
  let f := Qfloor q in
  match (q - inject_Z f ?= 1 # 2)%Q with Lt => f | Gt => f + 1 | Eq => if Z.even f then f else f + 1 end.
Definition scaled (scale : Q) (v : Z) : Z := if Qeq_bool scale 1 then v else nearest (inject_Z v * scale).
(* lines 960-964, 1191-1193: the information on packets from an image; None: resize fails *)
Definition info_of (scale : Q) (aligned : bool) (im : image) : option info :=
  let h := scaled scale (rows im) in let w := scaled scale (cols im) in
  if (0 <? h) && (0 <? w) then Some (Info (Some (h, w)) (depth im) (if (chans im =? 3) && aligned then 4 else chans im)) else None.

(* what is at the data path: a video file, or a directory with files, each an image, a video, or something else *)
Record file := File { as_image : option image; as_video : option (reader * Z) }.
Inductive place := Movie (r : reader) (claimed : Z) | Directory (fs : list file).
(* lines 925-966: parseData of the video producer; [claimed] is CAP_PROP_FRAME_COUNT. None: an exception. The state is that of a new loader *)
Definition parse_video (scale : Q) (aligned : bool) (d : place) : option (producer * state) :=
  let found := match d with
    | Movie r n => Some (Video r, n, fst (read r (set_pos r 0)))
    | Directory fs =>
      match fs with
      | [] => None
      | [f] => match as_video f with Some (r, n) => Some (Video r, n, fst (read r (set_pos r 0))) | None => None end
      | f :: _ => Some (Files (map as_image fs), Z.of_nat (length fs), as_image f)
      end
    end in
  match found with
  | Some (s, n, Some first) =>
    match info_of scale aligned first with
    | Some i => if 0 <? n then Some (Producer s n i, State (Cursor 0 (match s with Video r => set_pos r 0 | Files _ => 0 end)) size_max None) else None
    | None => None
    end
  | _ => None
  end.

(* the default image producer: paths (by what imread gives) and m_vInputInfos *)
Record images := Images { paths : list (option image); infos : list info; constant : bool }.
(* lines 1181-1187: files that cannot be read are erased; the image at n, if there is one *)
Fixpoint erase (ps : list (option image)) : list (option image) :=
  match ps with None :: r => erase r | _ => ps end.
Definition info_eqb (a b : info) : bool :=
  (idepth a =? idepth b) && (ichans a =? ichans b) &&
  match isize a, isize b with Some (h, w), Some (h', w') => (h =? h') && (w =? w') | None, None => true | _, _ => false end.
(* lines 1179-1199: the paths in front of n, the rest, the infos, oLastInfo and m_bIsInputInfoConst *)
Fixpoint parse_loop (fuel : nat) (scale : Q) (aligned : bool) (front rest : list (option image)) (is : list info) (lst : option info) (const : bool) : option images :=
  match fuel with
  | O => Some (Images front is const)
  | S k => match erase rest with
           | [] => Some (Images front is const)
           | None :: _ => None
           | Some im :: rest' =>
             match info_of scale aligned im with
             | None => None
             | Some i => parse_loop k scale aligned (front ++ [Some im]) rest' (is ++ [i]) (Some i)
                           (match lst with Some l => if negb (info_eqb l i) then false else const | None => const end)
             end
           end
  end.
(* lines 1169-1202; the files are those left by the filter on extensions *)
Definition parse_images (scale : Q) (aligned : bool) (fs : list (option image)) : option images :=
  match fs with
  | [] => None
  | _ => match parse_loop (length fs) scale aligned [] fs [] None true with
         | Some g => match infos g with [] => None | _ => Some g end
         | None => None
         end
  end.
(* lines 1117-1121 and 1151-1156 *)
Definition image_info (g : images) (i : Z) : info := if Z.of_nat (length (infos g)) <=? i then no_info else nth (Z.to_nat i) (infos g) no_info.
Definition raw_image (g : images) (i : Z) : option image := if Z.of_nat (length (paths g)) <=? i then None else match nth_error (paths g) (Z.to_nat i) with Some f => f | None => None end.
Definition load_image (grey : list Z -> Z) (g : images) (i : Z) : outcome := redirect grey true (image_info g i) (raw_image g i).

(* ground truth of both producers, lines 880-887, 914-923, 1123-1130, 1158-1167: the table of indices, the files, and the information on each *)
Record truth := Truth { table : Z -> option Z; gt_files : list (option image); gt_infos : list info }.
Definition gt_info (g : truth) (i : Z) : info := match table g i with Some k => if k <? Z.of_nat (length (gt_infos g)) then nth (Z.to_nat k) (gt_infos g) no_info else no_info | None => no_info end.
Definition raw_gt (g : truth) (i : Z) : option image :=
  match table g i with Some k => if k <? Z.of_nat (length (gt_files g)) then match nth_error (gt_files g) (Z.to_nat k) with Some f => f | None => None end else None | None => None end.
Definition load_gt (grey : list Z -> Z) (g : truth) (i : Z) : outcome := redirect grey true (gt_info g i) (raw_gt g i).
