(* The ground truth of packets by the numbers in file names: modules/datasets/include/litiv/datasets/impl/PETS2001.hpp lines 77-81, Wallflower.hpp lines 67-94, litiv-stcharles2018.hpp lines 592-603 and 948-978.
   Characters are their codes; m_mGTIndexLUT is a list of pairs, the latest first. *)
From Coq Require Import ZArith List Bool.
Import ListNotations.
Open Scope Z_scope.

Definition str := list Z.
Definition len (s : str) : Z := Z.of_nat (length s).
(* std::string::find; None is npos *)
Fixpoint starts (d s : str) : bool := match d, s with [], _ => true | a :: d, b :: s => (a =? b) && starts d s | _ :: _, [] => false end.
Fixpoint find (d s : str) : option Z := if starts d s then Some 0 else match s with [] => None | _ :: s => option_map (Z.add 1) (find d s) end.
(* std::string::substr; None is std::out_of_range *)
Definition substr (s : str) (pos cnt : Z) : option str := if pos <=? len s then Some (firstn (Z.to_nat cnt) (skipn (Z.to_nat pos) s)) else None.
(* atoi of the C library *)
Definition digit (c : Z) : bool := (48 <=? c) && (c <=? 57).
Definition space (c : Z) : bool := (c =? 32) || ((9 <=? c) && (c <=? 13)).
Fixpoint number (acc : Z) (s : str) : Z := match s with [] => acc | c :: s => if digit c then number (10 * acc + (c - 48)) s else acc end.
Fixpoint atoi (s : str) : Z :=
  match s with
  | [] => 0
  | c :: r => if space c then atoi r else if c =? 45 then - number 0 r else if c =? 43 then number 0 r else number 0 s
  end.
(* PETS2001.hpp line 81, Wallflower.hpp line 77: the number behind the prefix, as size_t; npos + size wraps around *)
Definition key (prefix : str) (cnt : Z) (s : str) : option Z :=
  let pos := (match find prefix s with Some p => p | None => 2 ^ 64 - 1 end + len prefix) mod 2 ^ 64 in
  match substr s pos cnt with Some t => Some (atoi t mod 2 ^ 64) | None => None end.
Definition lut := list (Z * Z).
Fixpoint lookup (l : lut) (n : Z) : option Z := match l with [] => None | (a, b) :: l => if a =? n then Some b else lookup l n end.
(* PETS2001.hpp lines 80-81, from file k on; "image_" and 4 digits *)
Definition image_ : str := [105; 109; 97; 103; 101; 95].
Fixpoint pets (k : Z) (paths : list str) (l : lut) : option lut :=
  match paths with
  | [] => Some l
  | s :: r => match key image_ 4 s with Some n => pets (k + 1) r ((n, k) :: l) | None => None end
  end.
(* Wallflower.hpp lines 73-94: input paths, ground truth paths, m_mGTIndexLUT, bFoundScript; None is an error *)
Definition hand_segmented_ : str := [104; 97; 110; 100; 95; 115; 101; 103; 109; 101; 110; 116; 101; 100; 95].
Definition bmp : str := [46; 98; 109; 112].
Definition str_eqb (a b : str) : bool := if list_eq_dec Z.eq_dec a b then true else false.
Record parsed := { inputs : list str; gts : list str; index : lut; script : bool }.
Fixpoint wallflower (script_path : str) (paths : list str) (st : parsed) : option parsed :=
  match paths with
  | [] => Some st
  | s :: r =>
    if str_eqb s script_path then wallflower script_path r {| inputs := inputs st; gts := gts st; index := index st; script := true |} else
    match find hand_segmented_ s with
    | Some _ => match key hand_segmented_ 5 s with
                | Some n => wallflower script_path r {| inputs := inputs st; gts := gts st ++ [s]; index := (n, Z.of_nat (length (gts st))) :: index st; script := script st |}
                | None => None
                end
    | None => if negb ((match find bmp s with Some p => p | None => 2 ^ 64 - 1 end) =? (len s - 4) mod 2 ^ 64) then None else
              wallflower script_path r {| inputs := inputs st ++ [s]; gts := gts st; index := index st; script := script st |}
    end
  end.

(* litiv-stcharles2018.hpp: lv::putf("%05d",i) for i below 100000, and lIndexMatcher, lines 953-955 *)
Definition five (i : Z) : str := map (fun d => 48 + (i / d) mod 10) [10000; 1000; 100; 10; 1].
Definition matcher (i : Z) (s : str) : bool := match find (five i) s with Some _ => true | None => false end.
(* lines 592-603: the first path for each index, an empty one if there is none *)
Definition cleaned (subset : list Z) (paths : list str) : list str := map (fun i => match List.find (matcher i) paths with Some s => s | None => [] end) subset.
(* lines 952, 957-973: the paths of one packet, one for each stream *)
Definition packet (streams : list (list str)) (i : Z) : list (option str) := map (List.find (matcher i)) streams.
Definition got (p : list (option str)) : bool := existsb (fun o => match o with Some _ => true | None => false end) p.
(* lines 950-978: m_vvsGTPaths and m_mGTIndexLUT, from packet n on *)
Fixpoint packets (streams : list (list str)) (n : Z) (subset : list Z) (st : list (list (option str)) * lut) : list (list (option str)) * lut :=
  match subset with
  | [] => st
  | i :: r => let p := packet streams i in
              packets streams (n + 1) r (if got p then (fst st ++ [p], (n, Z.of_nat (length (fst st ++ [p])) - 1) :: snd st) else st)
  end.
(* Wallflower.hpp lines 64-88 *)
Definition wallflower_parse (script_path : str) (paths : list str) : option parsed :=
  match wallflower script_path paths {| inputs := []; gts := []; index := []; script := false |} with
  | Some st => if script st && negb (Nat.eqb (length (inputs st)) 0) && Nat.eqb (length (gts st)) 1 then Some st else None
  | None => None
  end.
