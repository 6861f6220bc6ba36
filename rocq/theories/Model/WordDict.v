(* Dictionaries of words of the PAWCS background subtractor, modules/video/src/BackgroundSubtractorPAWCS.cpp: words live in a vector
   (m_voLocalWordList_1ch, m_voGlobalWordList_1ch and those of 3ch) filled in order through an iterator (m_pLocalWordListIter_1ch...), and a vector of
   pointers (m_vpLocalWordDict, m_vpGlobalWordDict)
   gives each dictionary its words. Vectors are blocks of memory: clearing one and resizing it keeps the block if it has room and moves to a new one
   otherwise, with fresh words in both cases; pointers into an older block, or past the words there are, must not be followed.
   Words are of any type; weights, comparisons and new words are given. *)
From Coq Require Import ZArith QArith List Bool.
From Verif Require Import Model.Lobster Model.SubsenseFrame.
Import ListNotations.
Open Scope Z_scope.

(* what can go wrong: a null pointer is followed; a pointer to a word that is no more; the iterator is followed past the end; an access outside a buffer or
   a vector; an empty matrix is read; a shift of a 64-bit number by 64 or more; an average over no frame; a modulo by zero *)
Inductive fault := Null | Dangling | Exhausted | Outside | Empty | Shift64 | NoFrame | Modulo.
(* an lvAssert_ on the arguments that throws; an exception of OpenCV *)
Inductive outcome (A : Type) := Done (a : A) | Refused | Thrown | Fault (f : fault).
Arguments Done {A} a. Arguments Refused {A}. Arguments Thrown {A}. Arguments Fault {A} f.
Definition obind {A B} (o : outcome A) (f : A -> outcome B) : outcome B :=
  match o with Done a => f a | Refused => Refused | Thrown => Thrown | Fault e => Fault e end.
Definition access {A} (o : option A) : outcome A := match o with Some a => Done a | None => Fault Outside end.
(* a loop over a list *)
Fixpoint each {A S} (f : A -> S -> outcome S) (l : list A) (s : S) : outcome S :=
  match l with [] => Done s | a :: l' => obind (f a s) (each f l') end.

(* a pointer: the block and the place in it *)
Definition ptr := (Z * Z)%type.

Section Words.
  Context {A : Type}.

  (* the vector of words: its block, size and capacity, the words, and the place of the iterator; the vector of pointers: its size and contents *)
  Record store := { block : Z; live : Z; room : Z; cells : Z -> A; next : Z; len : Z; slot : Z -> option ptr }.
  (* a new object *)
  Definition nothing (d : A) : store := {| block := 0; live := 0; room := 0; cells := fun _ => d; next := 0; len := 0; slot := fun _ => None |}.
  (* lines 434-442, 516-523: clear and resize of the words, the iterator at the beginning; lines 516-517: resize of the pointers, which are not cleared *)
  Definition renew (d : A) (n : Z) (m : store) : store :=
    {| block := if n <=? room m then block m else block m + 1; live := n; room := Z.max n (room m); cells := fun _ => d; next := 0;
       len := n; slot := fun s => if s <? Z.min n (len m) then slot m s else None |}.

  Definition deref (m : store) (p : ptr) : outcome A := if (fst p =? block m) && inside_buf (live m) (snd p) then Done (cells m (snd p)) else Fault Dangling.
  Definition assign (m : store) (p : ptr) (a : A) : outcome store :=
    if (fst p =? block m) && inside_buf (live m) (snd p)
    then Done {| block := block m; live := live m; room := room m; cells := set1 (cells m) (snd p) a; next := next m; len := len m; slot := slot m |}
    else Fault Dangling.
  (* a pointer of the vector *)
  Definition pointer (m : store) (s : Z) : outcome (option ptr) := access (get (len m) (slot m) s).
  (* the word it points to, if any *)
  Definition peek (m : store) (s : Z) : outcome (option A) :=
    obind (pointer m s) (fun o => match o with None => Done None | Some p => obind (deref m p) (fun a => Done (Some a)) end).
  Definition word_at (m : store) (s : Z) : outcome A := obind (pointer m s) (fun o => match o with None => Fault Null | Some p => deref m p end).
  Definition put (m : store) (s : Z) (a : A) : outcome store := obind (pointer m s) (fun o => match o with None => Fault Null | Some p => assign m p a end).
  (* std::swap of a pointer and the one before *)
  Definition swap (m : store) (s : Z) : outcome store :=
    obind (pointer m s) (fun a => obind (pointer m (s - 1)) (fun b =>
    Done {| block := block m; live := live m; room := room m; cells := cells m; next := next m; len := len m; slot := set1 (set1 (slot m) s b) (s - 1) a |})).
  (* the word at the iterator, which moves on, is given the value a, and its address is kept *)
  Definition create (m : store) (s : Z) (a : A) : outcome store :=
    if next m <? live m then
      obind (pointer m s) (fun _ =>
      Done {| block := block m; live := live m; room := room m; cells := set1 (cells m) (next m) a; next := next m + 1; len := len m; slot := set1 (slot m) s (Some (block m, next m)) |})
    else Fault Exhausted.

  (* lines 143-155, 206-215: the first of k words from place s that fits, and whether a null pointer was met *)
  Fixpoint seek (m : store) (fits : A -> outcome bool) (k : nat) (s : Z) (un : bool) : outcome (option Z * bool) :=
    match k with
    | O => Done (None, un)
    | S k' => obind (peek m s) (fun o =>
      match o with
      | None => seek m fits k' (s + 1) true
      | Some a => obind (fits a) (fun b : bool => if b then Done (Some s, un) else seek m fits k' (s + 1) un)
      end)
    end.
  (* lines 156-165, 216-227: when no word fits, a new one in the last place, or the last one is overwritten; the place of the word *)
  Definition insert (m : store) (fits : A -> outcome bool) (k : nat) (s : Z) (fresh : A) : outcome (Z * bool * store) :=
    obind (seek m fits k s false) (fun r =>
    match fst r with
    | Some t => Done (t, true, m)
    | None =>
      let t := s + Z.of_nat k - 1 in
      obind (if snd r : bool then create m t fresh else put m t fresh) (fun m' => Done (t, false, m'))
    end).
  (* lines 166-169, 234-237: the word of place s + k moves before those that are lighter, down to place s *)
  Fixpoint climb (m : store) (heavier : A -> A -> bool) (k : nat) (s : Z) : outcome store :=
    match k with
    | O => Done m
    | S k' =>
      let t := s + Z.of_nat k in
      obind (pointer m (t - 1)) (fun p =>
      match p with
      | None => obind (swap m t) (fun m' => climb m' heavier k' s)
      | Some _ => obind (word_at m t) (fun a => obind (word_at m (t - 1)) (fun b =>
          if heavier a b then obind (swap m t) (fun m' => climb m' heavier k' s) else Done m))
      end)
    end.
End Words.
Arguments store : clear implicits.
