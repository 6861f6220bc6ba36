(* Subsets of frames with temporal windows: modules/datasets/include/litiv/datasets/impl/litiv-stcharles2018.hpp lines 288-308, 520-605 and 889-905, vap-trimod2016.hpp lines 235-256, 307-343 and 436-441,
   litiv-bilodeau2014.hpp lines 235-240; and the packets that apps/cosegm/src/main.cpp evaluates, lines 447 and 633-782 (DATASET_EVAL_FINAL_UPDATE).
   A std::set of indices is the list of its elements in order. Not modelled: calibration data, the reading of files and the names of paths. *)
From Coq Require Import ZArith List Bool.
From Verif Require Import Lib.Grid.
Import ListNotations.
Open Scope Z_scope.

(* std::set::insert *)
Fixpoint insert (x : Z) (s : list Z) : list Z := match s with [] => [x] | y :: r => if x <? y then x :: s else if x =? y then s else y :: insert x r end.
Definition insert_all (xs s : list Z) : list Z := fold_left (fun s x => insert x s) xs s.
(* a line of the subset file, litiv-stcharles2018.hpp lines 541-546: a comment, an index, or a line that std::stoi throws at *)
Inductive line : Type := Comment | Index (i : Z) | Other.
(* lines 549-551 *)
Definition window (total w i : Z) (sub : list Z) : list Z := fold_left (fun s f => if (0 <=? f) && (f <? total) then insert f s else s) (zrange (i - w) (2 * w + 1)) sub.
(* lines 540-552: m_mRealSubset and m_mSubset; None is a failed lvAssert, an exception, or an overflow of int *)
Fixpoint read (total w : Z) (lines : list line) (real sub : list Z) : option (list Z * list Z) :=
  match lines with
  | [] => Some (real, sub)
  | Comment :: r => read total w r real sub
  | Index i :: r => if (0 <=? i) && (i <? total) && (i + w <? 2 ^ 31 - 1) then read total w r (insert i real) (window total w i sub) else None
  | Other :: _ => None
  end.
Definition is_empty (s : list Z) : bool := match s with [] => true | _ => false end.
(* lines 535-563: load is bLoadFrameSubset, only is bEvalOnlyFrameSubset, total is nTotInputPackets *)
Definition subset_2018 (load only : bool) (total w : Z) (lines : list line) : option (list Z * list Z) :=
  if w <? 0 then None else
  if load || only then
    match read total w lines [] [] with
    | None => None
    | Some (real, sub) => if is_empty sub then None else Some (real, if load then sub else insert_all (zrange 0 total) sub)
    end
  else let all := insert_all (zrange 0 total) [] in Some (all, all).
(* vap-trimod2016.hpp lines 307-328 *)
Definition subset_vap (load only : bool) (w : Z) (lines : list line) : option (list Z * list Z) :=
  if w <? 0 then None else
  if load || only then
    match read 2500 w lines [] [] with None => None | Some (real, sub) => if is_empty sub then None else Some (real, sub) end
  else Some ([], []).
(* lSubsetCleaner of litiv-stcharles2018.hpp lines 580-591, lInputSubsetCleaner of vap-trimod2016.hpp lines 329-335, but for the names: None is a failed lvAssert *)
Definition kept {A} (d : A) (sub : list Z) (paths : list A) : option (list A) :=
  if negb (is_empty sub) && (last sub 0 <? Z.of_nat (length paths)) then Some (map (fun i => nth (Z.to_nat i) paths d) sub) else None.
(* the frame of each packet of VAP: vap-trimod2016.hpp lines 436-441, n files *)
Definition frames_vap (load : bool) (sub : list Z) (n : Z) : list Z := if load then sub else zrange 0 n.

Definition at_ (s : list Z) (i : Z) : Z := nth (Z.to_nat i) s 0.
(* isTemporalWindowBreak, litiv-stcharles2018.hpp lines 289-308 and vap-trimod2016.hpp lines 236-256, from the test of the flags on: active tells whether the subset is looked at *)
Definition is_break (active : bool) (w : Z) (sub : list Z) (i : Z) : option bool :=
  if i =? 0 then Some true else
  if negb active then Some false else
  if is_empty sub || (w <? 0) then None else
  if (w =? 0) || (Z.of_nat (length sub) <=? i) then Some true else
  Some (negb (at_ sub (i - 1) + 1 =? at_ sub i)).
Definition break_2018 (load only : bool) : Z -> list Z -> Z -> option bool := is_break load.
Definition break_vap (load only : bool) : Z -> list Z -> Z -> option bool := is_break (load || only).
(* litiv-bilodeau2014.hpp lines 236-240 *)
Definition break_2014 (load : bool) (i : Z) : bool := if i =? 0 then true else load.

(* main.cpp, the loop over packets: the pairs nCurrIdx, nEvalIdx of all pushes; depth is getTemporalDepth(), left the packets left *)
Fixpoint analyze (left : nat) (brk : Z -> bool) (depth cur lst : Z) : list (Z * Z) :=
  match left with
  | O => []
  | S m => let lst := if brk cur then cur else lst in
           (if brk (cur + 1) then let k := Z.min (cur - lst) depth in map (fun e => (cur, e)) (zrange (cur - k) (k + 1))
            else if depth <=? cur - lst then [(cur, cur - depth)] else [])
           ++ analyze m brk depth (cur + 1) lst
  end.
