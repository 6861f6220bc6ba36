(** Names of packets and the files they go to: lv::IDataHandler::getInputName, getOutputName, getFeaturesName (modules/datasets/src/utils.cpp:36-58), lv::IDataProducer_<DatasetSource_Image>::getInputName (1139-1145), getOutputName of CDnet (modules/datasets/include/litiv/datasets/impl/CDnet.hpp:108-112), and saveOutput, loadOutput and their array versions (utils.cpp:1461-1613) on a file system that maps paths to contents.
    Strings are lists of character codes; image compression is taken as lossless. *)
From Coq Require Import ZArith List Bool Arith.
From Verif Require Import Model.Strings Model.Groups.
Import ListNotations.

(** the conversions %06zu and %09zu of snprintf: decimal digits (48 is '0'), at most twenty for a 64-bit value, padded with zeros *)
Fixpoint digits (fuel : nat) (n : Z) (acc : str) : str :=
  match fuel with
  | 0 => acc
  | S f => let acc := Z.to_nat (48 + n mod 10) :: acc in if (n <? 10)%Z then acc else digits f (n / 10) acc
  end.
Definition zu (w : nat) (n : Z) : str := let d := digits 20 n [] in repeat 48 (w - length d) ++ d.
Definition wide (b : bool) : nat := if b then 6 else 9.
(** utils.cpp:36-40 *)
Definition getInputName (inputs idx : Z) : str := zu (wide (inputs <? 10000000)%Z) idx.
(** utils.cpp:42-49; [image] is the name given by an image producer whose inputs map to outputs, None otherwise *)
Definition getOutputName (outputs : Z) (image : option (Z -> str)) (idx : Z) : str := match image with Some f => f idx | None => zu (wide (outputs <? 10000000)%Z) idx end.
(** utils.cpp:51-58 *)
Definition getFeaturesName (image : option (Z -> str)) (idx : Z) : str := match image with Some f => f idx | None => zu (wide (idx <? 10000000)%Z) idx end.
(** CDnet.hpp:108-112; "bin" *)
Definition cdnet_name (idx : Z) : str := [98; 105; 110] ++ zu 6 (u64 (idx + 1)).
(** substr(0,find_last_of(".")), utils.cpp:1144; 46 is '.' *)
Fixpoint upto_dot (s : str) : option str := match s with [] => None | c :: r => match upto_dot r with Some t => Some (c :: t) | None => if c =? 46 then Some [] else None end end.
Definition stem (path : str) : str := let n := last_name path in match upto_dot n with Some t => t | None => n end.
(** utils.cpp:1139-1145 *)
Definition image_name (paths : list str) (idx : Z) : str := if (Z.of_nat (length paths) <=? idx)%Z then getInputName (Z.of_nat (length paths)) idx else stem (nth (Z.to_nat idx) paths []).

(** files *)
Section Files.
Context {V : Type}.
Definition files := str -> option V.
Definition write (p : str) (v : V) (fs : files) : files := fun q => if list_eq_dec Nat.eq_dec q p then Some v else fs q.
Section Archive.
(** the output directory, the name of a packet, the extension (".png" or ".bin") *)
Variable dir : str.
Variable name : Z -> str.
Variable ext : str.
Definition path (idx : Z) : str := dir ++ name idx ++ ext.
(** utils.cpp:1480-1507 and 1461-1477, without the greying of masks, see Model/Greying.v *)
Definition saveOutput (idx : Z) (v : V) : files -> files := write (path idx) v.
Definition loadOutput (idx : Z) (fs : files) : option V := fs (path idx).
(** utils.cpp:1513-1515 and 1584-1586: with several streams the number of the stream is appended after '_' (95) *)
Definition stream_path (streams idx s : Z) : str := dir ++ name idx ++ (if (1 <? streams)%Z then 95 :: zu 0 s else []) ++ ext.
(** utils.cpp:1551-1613 and 1511-1533; the number of values is the number of streams *)
Fixpoint save_streams (streams idx s : Z) (vs : list V) (fs : files) : files :=
  match vs with [] => fs | v :: r => save_streams streams idx (s + 1) r (write (stream_path streams idx s) v fs) end.
Definition saveOutputArray (idx : Z) (vs : list V) : files -> files := save_streams (Z.of_nat (length vs)) idx 0 vs.
Definition loadOutputArray (streams : nat) (idx : Z) (fs : files) : list (option V) := map (fun s => fs (stream_path (Z.of_nat streams) idx (Z.of_nat s))) (seq 0 streams).
End Archive.
End Files.
