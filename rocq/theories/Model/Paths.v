(** lv::filterFilePaths, lv::getFilesFromDir and lv::getSubDirsFromDir, modules/utils/src/platform.cpp:61-182 (the part for systems other than Windows).
    A directory is the list of what readdir gives, in any order: names and kinds. *)
From Coq Require Import ZArith List Bool Arith.
From Verif Require Import Model.Strings Model.Groups.
Import ListNotations.

(** platform.cpp:171-182 *)
Fixpoint filter_paths (paths remove keep result : list str) : list str :=
  match paths with
  | [] => result
  | p :: r =>
    if negb (match remove with [] => true | _ => false end) && string_contains_token p remove then filter_paths r remove keep result
    else if (match keep with [] => true | _ => false end) || string_contains_token p keep then filter_paths r remove keep (result ++ [p])
    else filter_paths r remove keep result
  end.
Definition filterFilePaths (paths remove keep : list str) : list str := filter_paths paths remove keep [].

(** what stat says of an entry *)
Inductive kind := Regular | Directory | Other.
(** operator< of std::string *)
Fixpoint str_lt (a b : str) : bool :=
  match a, b with
  | _, [] => false
  | [], _ :: _ => true
  | x :: a, y :: b => (x <? y) || ((x =? y) && str_lt a b)
  end.
(** std::sort, as an insertion *)
Fixpoint insert (p : str) (l : list str) : list str := match l with [] => [p] | q :: r => if str_lt q p then q :: insert p r else p :: q :: r end.
Definition sort (l : list str) : list str := fold_right insert [] l.
Definition thumbs : str := [84; 104; 117; 109; 98; 115; 46; 100; 98].
Definition str_eqb (a b : str) : bool := if list_eq_dec Nat.eq_dec a b then true else false.
(** platform.cpp:86-108; None when the directory cannot be opened *)
Definition getFilesFromDir (dir : str) (d : option (list (str * kind))) : list str :=
  match d with
  | None => []
  | Some es => sort (map (fun e => add_slash dir ++ fst e) (filter (fun e => match snd e with Regular => negb (str_eqb (fst e) thumbs) | _ => false end) es))
  end.
(** platform.cpp:141-163 *)
Definition getSubDirsFromDir (dir : str) (d : option (list (str * kind))) : list str :=
  match d with
  | None => []
  | Some es => sort (map (fun e => add_slash dir ++ fst e) (filter (fun e => match snd e with Directory => negb (str_eqb (fst e) [46]) && negb (str_eqb (fst e) [46; 46]) | _ => false end) es))
  end.
