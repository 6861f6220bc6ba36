(** Trees of work batches: lv::DataGroupHandler (modules/datasets/src/utils.cpp:184-297), its parsing of directories, the paths given to batches (utils.cpp:171-178, modules/datasets/include/litiv/datasets.hpp:158-175) and printDataStructure (utils.cpp:104-117 and 1644-1652).
    The file system is what lv::getSubDirsFromDir (modules/utils/src/platform.cpp:116-169) lists: the sorted names of the sub-directories of a path. Strings are lists of character codes. *)
From Coq Require Import ZArith List Bool Arith.
From Verif Require Import Model.Strings.
Import ListNotations.

Inductive tree (A : Type) := Leaf (a : A) | Group (bare : bool) (l : list (tree A)).
Arguments Leaf {A}. Arguments Group {A}.
Definition u64 (v : Z) : Z := Z.modulo v 18446744073709551616.
Section Trees.
Context {A : Type}.
(** getBatches(false), utils.cpp:250-264: a function that pushes to a vector, called on itself for the batches of a group; for a batch the result is empty (datasets.hpp:91) *)
Fixpoint push_batches (t : tree A) (v : list A) : list A := match t with Leaf a => v ++ [a] | Group _ l => fold_left (fun v t => push_batches t v) l v end.
Definition getBatches (t : tree A) : list A := match t with Leaf _ => [] | Group _ l => fold_left (fun v t => push_batches t v) l [] end.
(** getExpectedLoadSize, getInputCount, getGTCount, getExpectedOutputCount, getCurrentOutputCount, utils.cpp:184-209, with lv::accumulateMembers (modules/utils/include/litiv/utils/cxx.hpp:309-313) on 64-bit sums *)
Fixpoint total (f : A -> Z) (t : tree A) : Z := match t with Leaf a => f a | Group _ l => fold_left (fun s t => u64 (s + total f t)) l 0%Z end.
(** getFinalOutputCount, utils.cpp:211-213: None when a batch blocks *)
Fixpoint final (f : A -> option Z) (t : tree A) : option Z :=
  match t with Leaf a => f a | Group _ l => fold_left (fun s t => match s with None => None | Some s => match final f t with None => None | Some v => Some (u64 (s + v)) end end) l (Some 0%Z) end.
(** isProcessing, isPrecaching, utils.cpp:228-240 *)
Fixpoint any (f : A -> bool) (t : tree A) : bool := match t with Leaf a => f a | Group _ l => existsb (any f) l end.
(** resetMetrics, startPrecaching, stopPrecaching, utils.cpp:223-226 and 266-274: the batches on which it is called, and whether it gets through; [ok] says whether the call on a batch returns (it throws otherwise) *)
Fixpoint each (ok : A -> bool) (t : tree A) : list A * bool :=
  match t with
  | Leaf a => ([a], ok a)
  | Group _ l => (fix go l := match l with [] => ([], true) | t :: r => let '(v, b) := each ok t in if b then let '(w, c) := go r in (v ++ w, c) else (v, false) end) l
  end.
(** printDataStructure, utils.cpp:104-117, and of the dataset itself, 1644-1652: one line for each group that is not bare (None) and each batch, None when the assertion of line 107 fails *)
Fixpoint print (t : tree A) : option (list (option A)) :=
  match t with
  | Leaf a => Some [Some a]
  | Group true l => match l with [b] => print b | _ => None end
  | Group false l => match (fix go l := match l with [] => Some [] | t :: r => match print t, go r with Some v, Some w => Some (v ++ w) | _, _ => None end end) l with Some v => Some (None :: v) | None => None end
  end.
End Trees.

(** lv::addDirSlashIfMissing, platform.cpp:50-59; 46 is '.', 47 '/', 92 '\' *)
Definition is_slash (c : char) : bool := (c =? 47) || (c =? 92).
Definition add_slash (p : str) : str :=
  if list_eq_dec Nat.eq_dec p [] then []
  else if list_eq_dec Nat.eq_dec p [46] then p ++ [47]
  else if list_eq_dec Nat.eq_dec p [46; 46] then p ++ [47]
  else if is_slash (last p 0) then p else p ++ [47].
(** the part after the last slash, utils.cpp:289-290 *)
Fixpoint after_slash (p acc : str) : str := match p with [] => acc | c :: r => if is_slash c then after_slash r r else after_slash r acc end.
Definition last_name (p : str) : str := after_slash p p.
Record batch := Batch { b_name : str; b_rel : str; b_data : str }.
Section Parse.
(** the sub-directories listed for a path; the root of the dataset; the skip tokens *)
Variable subdirs : str -> list str.
Variable root : str.
Variable skip : list str.
(** platform.cpp:158-163 *)
Definition getSubDirs (p : str) : list str := map (fun d => add_slash p ++ d) (subdirs p).
(** the constructor of DataHandler, utils.cpp:171-175: the name, the relative path and the data path *)
Definition make (name rel : str) : batch := Batch name (add_slash rel) (root ++ add_slash rel).
(** DataGroupHandler::parseData, utils.cpp:276-297, of the group [make name rel] *)
Definition parse_group (name rel : str) : tree batch :=
  let g := make name rel in
  if string_contains_token name skip then Group true []
  else match getSubDirs (b_data g) with
       | [] => Group true [Leaf (make name (b_rel g))]
       | ps => Group false (flat_map (fun p => let n := last_name p in if string_contains_token n skip then [] else [Leaf (make n (b_rel g ++ add_slash n))]) ps)
       end.
(** IDataset_::parseData, datasets.hpp:167-175 *)
Definition parse (dirs : list str) : tree batch := Group false (map (fun d => parse_group d (add_slash d)) dirs).
End Parse.
