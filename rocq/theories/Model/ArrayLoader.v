(* Packets that hold several matrices: modules/datasets/src/utils.cpp lines 314-326 (DataPrecacher::getPacket without a thread), 554-577, 597-606 (features), 663-686, 710-732 (array packets), 749-793
   (getInputArray, getGTArray, loadFeaturesArray, saveFeaturesArray) and 1508-1608 (loadOutputArray, saveOutputArray).
   Packing is that of Model/Pack.v. The matrices that lv::unpackData returns are headers over the memory of the packet; that memory belongs to m_oLastReqPacket alone and is numbered, so a header can
   outlive it. Files are kept by the index of their packet (distinct indices have distinct names) and read back as they were written. The greying of masks is not modelled here: getGTROI of an array loader
   is empty unless overridden. *)
From Coq Require Import ZArith List Bool.
From Verif Require Import Model.Archive Model.Pack.
Import ListNotations.
Open Scope Z_scope.

Definition size_max : Z := 2 ^ 64 - 1.
(* m_nLastReqIdx, m_oLastReqPacket and the number of its buffer; m_vLatestUnpacked... and the number of the buffer its headers refer to *)
Record loader := Loader { last : Z; packet : nmat; buffer : nat; view : list nmat; viewed : nat }.
Definition new_loader : loader := Loader size_max empty_mat 0 [] 0.

(* what is seen through a returned array: its matrices, or released memory; or the call throws *)
Inductive answer := Shown (ms : list nmat) | Dangling | Throws.
Definition has_memory (ms : list nmat) : bool := existsb (fun m => negb (match bytes m with [] => true | _ => false end)) ms.
Definition look (l : loader) : answer := if has_memory (view l) && negb (Nat.eqb (viewed l) (buffer l)) then Dangling else Shown (view l).

(* lines 314-326; [load] is the callback, None: it throws *)
Definition get_packet (load : Z -> option nmat) (l : loader) (i : Z) : loader * option nmat :=
  if i =? last l then (l, Some (packet l))
  else match load i with
       | Some p => (Loader i p (S (buffer l)) (view l) (viewed l), Some p)
       | None => (l, None)
       end.
(* lines 749-775 and 777-786: request the packet if it is not the last one, then unpack it *)
Definition get_array (load : Z -> option nmat) (is : list info) (l : loader) (i : Z) : loader * answer :=
  if last l =? i then (l, look l)
  else match get_packet load l i with
       | (l', None) => (l', Throws)
       | (l', Some p) => match unpackData p is with
                         | Some ms => let l2 := Loader (last l') (packet l') (buffer l') ms (buffer l') in (l2, look l2)
                         | None => (l', Throws)
                         end
       end.

(* inputs: [raw i] is the array after the conversions, None if an assertion fails (lines 663-686); getInputInfoArray gives the information on the same matrices.
   The packet of an array is packed, lines 686, 732 *)
Definition input_load (raw : Z -> option (list nmat)) (i : Z) : option nmat := match raw i with Some ms => packData ms | None => None end.
Definition input_infos (raw : Z -> option (list nmat)) (i : Z) : list info := match raw i with Some ms => infos ms | None => [] end.
Inductive input_call := InputArray (i : Z) | InputPacket (i : Z).
Definition input_step (raw : Z -> option (list nmat)) (l : loader) (c : input_call) : loader :=
  match c with
  | InputArray i => fst (get_array (input_load raw) (input_infos raw i) l i)
  | InputPacket i => fst (get_packet (input_load raw) l i)
  end.
Definition input_run (raw : Z -> option (list nmat)) (cs : list input_call) : loader := fold_left (input_step raw) cs new_loader.
Definition input_array (raw : Z -> option (list nmat)) (l : loader) (i : Z) : answer := snd (get_array (input_load raw) (input_infos raw i) l i).

(* features: the files and the loader *)
Record features := Features { files : Z -> option nmat; feats : loader }.
Definition no_features : features := Features (fun _ => None) new_loader.
Definition empty_of (m : nmat) : bool := ntotal (dims m) =? 0.
(* lines 569-577 *)
Definition put (fs : Z -> option nmat) (i : Z) (m : nmat) : Z -> option nmat := if empty_of m then fs else fun j => if j =? i then Some m else fs j.
(* lines 597-606: an empty matrix if there is no file *)
Definition raw_features (fs : Z -> option nmat) (i : Z) : option nmat := Some (match fs i with Some m => m | None => empty_mat end).
Inductive feature_call := Save (i : Z) (m : nmat) | SaveArray (i : Z) (ms : list nmat) | LoadF (i : Z) | LoadArray (i : Z) (is : list info).
Definition feature_step (f : features) (c : feature_call) : features :=
  match c with
  | Save i m => Features (put (files f) i m) (feats f)
  | SaveArray i ms => match packData ms with Some p => Features (put (files f) i p) (feats f) | None => f end
  | LoadF i => Features (files f) (fst (get_packet (raw_features (files f)) (feats f) i))
  | LoadArray i is => Features (files f) (fst (get_array (raw_features (files f)) is (feats f) i))
  end.
Definition feature_run (cs : list feature_call) : features := fold_left feature_step cs no_features.
Definition load_features (f : features) (i : Z) : option nmat := snd (get_packet (raw_features (files f)) (feats f) i).
Definition load_array (f : features) (i : Z) (is : list info) : answer := snd (get_array (raw_features (files f)) is (feats f) i).

(* outputs: a path is the index, the number of the stream if there are several, and whether it ends in .png; [png] is what imread gives for what imwrite wrote *)
Inductive kind := ImageKind | ImageArrayKind | OtherKind.
Definition archive := (Z * option nat * bool) -> option nmat.
Definition key_eqb (a b : Z * option nat * bool) : bool :=
  let '(i, k, e) := a in let '(i', k', e') := b in
  (i =? i') && match k, k' with Some x, Some y => Nat.eqb x y | None, None => true | _, _ => false end && Bool.eqb e e'.
Definition store (a : archive) (key : Z * option nat * bool) (m : nmat) : archive := fun x => if key_eqb x key then Some m else a x.
(* lines 1583-1607 without the assertion of debug builds *)
Fixpoint store_streams (png : nmat -> nmat) (t : kind) (a : archive) (i : Z) (k : nat) (ms : list nmat) : archive :=
  match ms with
  | [] => a
  | m :: r => store_streams png t (match t with ImageArrayKind => store a (i, Some k, true) (png m) | _ => store a (i, Some k, false) m end) i (S k) r
  end.
(* lines 1549-1608; None: the wrong number of matrices *)
Definition save_outputs (png : nmat -> nmat) (t : kind) (streams : nat) (a : archive) (i : Z) (ms : list nmat) : option archive :=
  if Nat.eqb (length ms) streams then
    match ms with
    | [m] => Some (match t with ImageKind | ImageArrayKind => store a (i, None, true) (png m) | OtherKind => store a (i, None, false) m end)
    | _ => Some (store_streams png t a i 0 ms)
    end
  else None.
(* lines 1508-1529; a missing image is an empty matrix, and reading a missing binary file throws *)
Definition load_output (t : kind) (streams : nat) (a : archive) (i : Z) (k : nat) : option nmat :=
  let s := if Nat.ltb 1 streams then Some k else None in
  match t with
  | ImageKind | ImageArrayKind => Some (match a (i, s, true) with Some m => m | None => empty_mat end)
  | OtherKind => a (i, s, false)
  end.
Definition load_outputs (t : kind) (streams : nat) (a : archive) (i : Z) : list (option nmat) := map (load_output t streams a i) (seq 0 streams).
