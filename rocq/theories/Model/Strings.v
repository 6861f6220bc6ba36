(** String helpers of modules/utils/src/cxx.cpp and cxx.hpp; a string is a list of characters, a character a number 0..255. *)
From Coq Require Import List ZArith Arith Bool.
Import ListNotations.

Definition char := nat.
Definition str := list char.

(** std::getline on the remaining characters: None when nothing could be extracted (failbit), else the token and the rest *)
Fixpoint take_until (d : char) (s : str) : str * str :=
  match s with
  | [] => ([], [])
  | c :: r => if c =? d then ([], r) else let '(t, u) := take_until d r in (c :: t, u)
  end.
Definition getline (d : char) (s : str) : option (str * str) :=
  match s with [] => None | _ => Some (take_until d s) end.
(** cxx.hpp:92-99 the loop of [split] (fuel: every getline extracts at least one character) *)
Fixpoint split_loop (fuel : nat) (d : char) (s : str) : list str :=
  match fuel with
  | O => []
  | S f => match getline d s with None => [] | Some (t, r) => t :: split_loop f d r end
  end.
(** cxx.hpp:92-99 / cxx.cpp:116-120 [split] *)
Definition split (s : str) (d : char) : list str :=
  match s with [] => [] | _ => split_loop (S (length s)) d s end.

(** std::string::find, None for npos *)
Fixpoint is_prefix (t s : str) : bool :=
  match t, s with
  | [], _ => true
  | c :: t', x :: s' => (c =? x) && is_prefix t' s'
  | _ :: _, [] => false
  end.
Fixpoint str_find (s t : str) : option nat :=
  if is_prefix t s then Some 0 else match s with [] => None | _ :: r => option_map S (str_find r t) end.
(** cxx.cpp:103-108 [string_contains_token] *)
Fixpoint string_contains_token (s : str) (tokens : list str) : bool :=
  match tokens with
  | [] => false
  | t :: r => match str_find s t with Some _ => true | None => string_contains_token s r end
  end.

(** cxx.cpp:110-112 [clampString] *)
Definition clampString (s : str) (n : nat) (pad : char) : str :=
  if n <? length s then firstn n s else repeat pad (n - length s) ++ s.

(** cxx.cpp:96-101 [compare_lowercase], std::tolower in the "C" locale *)
Definition tolower (c : char) : char := if (65 <=? c) && (c <=? 90) then c + 32 else c.
Fixpoint str_lt (a b : str) : bool :=
  match a, b with
  | [], [] => false
  | [], _ :: _ => true
  | _ :: _, [] => false
  | x :: a', y :: b' => if x <? y then true else if y <? x then false else str_lt a' b'
  end.
Definition compare_lowercase (a b : str) : bool := str_lt (map tolower a) (map tolower b).

(** vsnprintf into a buffer of [size] characters: at most size-1 characters then a NUL; returns the full length *)
Definition vsnprintf (buf : str) (size : nat) (text : str) : str * nat :=
  match size with
  | O => (buf, length text)
  | S k => let w := firstn k text in (w ++ [0] ++ skipn (length w + 1) buf, length text)
  end.
Definition resize (s : str) (n : nat) : str := firstn n s ++ repeat 0 (n - length s).
(** cxx.cpp:22-48 [putf] with the text that the format denotes; [nbuf] is 1024 in the code *)
Definition putf (nbuf : nat) (text : str) : option str :=
  let buf := repeat 0 nbuf in
  let '(buf, written) := vsnprintf buf (length buf) text in
  if written <=? length buf then Some (resize buf written)
  else
    let buf := resize buf (written + 1) in
    let '(buf, written2) := vsnprintf buf (length buf) text in
    if length buf <? written2 then None else Some (resize buf written2).
