(** lv::DataPrecacher, modules/datasets/src/utils.cpp:302-538, and its worker thread, as a transition system. One step is what a thread does between two
    points where it can be overtaken: the mutex m_oSyncMutex is held by the worker except inside wait_for (line 469) and by the client in getPacket except
    inside wait_for (line 334), so a step of one thread is atomic for the other. The client is one thread (the header forbids concurrent calls).
    A matrix is its bytes (its header is copied verbatim); the data loader callback is a function of the index, as the header demands. *)
From Coq Require Import ZArith List Bool.
Import ListNotations.
Open Scope Z_scope.

Definition W64 : Z := 18446744073709551616.
(** size_t(-1) *)
Definition NIL : Z := 18446744073709551615.
Definition u64 (v : Z) : Z := v mod W64.
(** what a matrix refers to: its own bytes, or [len] bytes at offset [off] of the buffer of the [g]-th worker *)
Inductive packet := Own (l : list Z) | View (g off len : Z).
Definition read (buf : Z -> Z) (off len : Z) : list Z := map (fun k => buf (off + Z.of_nat k)) (seq 0 (Z.to_nat len)).
Definition write (buf : Z -> Z) (off : Z) (l : list Z) : Z -> Z := fun a => if (off <=? a) && (a <? off + Z.of_nat (length l)) then nth (Z.to_nat (a - off)) l 0 else buf a.

(** locals of entry, lines 403-412: the cache is the list of the offsets and lengths of the matrices in vcBuffer *)
Record wst := Wst { size : Z; cache : list (Z * Z); buf : Z -> Z; expected : Z; precache : Z; first : Z; next : Z; tgt_idx : Z; tgt : list Z; at_end : bool }.
Definition winit (B : Z) : wst := Wst B [] (fun _ => 0) 0 0 NIL NIL NIL [] false.

Section Source.
(** the callback; [None] when it throws *)
Variable src : Z -> option (list Z).

(** lines 413-460, lCacheNextPacket: [None] when the callback throws, otherwise the new locals and the returned size *)
Definition place (w : wst) (n : Z) : option (Z * Z * Z) (* offset, first, next *) :=
  if (first w =? NIL) || (next w =? NIL) || (first w <? next w) then
    if (next w =? NIL) || (size w <? next w + n) then
      if (negb (first w =? NIL) && (first w <? n)) || (size w <? n) then None
      else Some (0, (if first w =? NIL then 0 else first w), n)
    else Some (next w, first w, next w + n)
  else if next w + n <? first w then Some (next w, first w, next w + n)
  else None.
Definition cache_next (w : wst) (t : Z) : option (wst * Z) :=
  match (if t =? tgt_idx w then Some (tgt w) else src t) with
  | None => None
  | Some p =>
      let w := Wst (size w) (cache w) (buf w) (expected w) (precache w) (first w) (next w) t p (at_end w) in
      let n := Z.of_nat (length p) in
      if n =? 0 then Some (Wst (size w) (cache w) (buf w) (expected w) (precache w) (first w) (next w) (tgt_idx w) (tgt w) true, 0)
      else
        let w := Wst (size w) (cache w) (buf w) (expected w) (precache w) (first w) (next w) (tgt_idx w) (tgt w) false in
        match place w n with
        | None => Some (w, 0)
        | Some (off, f, x) => Some (Wst (size w) (cache w ++ [(off, n)]) (write (buf w) off p) (expected w) (precache w) f x (tgt_idx w) (tgt w) false, n)
        end
  end.
(** lines 463-466 and 516-519: one attempt at the next packet *)
Definition cache_one (w : wst) : option (wst * Z) :=
  match cache_next w (precache w) with
  | None => None
  | Some (w, n) => Some (if n =? 0 then w else Wst (size w) (cache w) (buf w) (expected w) (u64 (precache w + 1)) (first w) (next w) (tgt_idx w) (tgt w) (at_end w), n)
  end.
(** lines 477-483, [k] turns; [None] is front() of an empty list *)
Fixpoint pop (g : Z) (k : nat) (w : wst) (p : packet) : option (wst * packet) :=
  match k with
  | O => Some (w, p)
  | S k => match cache w with
           | [] => None
           | (off, n) :: r => pop g k (Wst (size w) r (buf w) (u64 (expected w + 1)) (precache w) off (next w) (tgt_idx w) (tgt w) (at_end w)) (View g off n)
           end
  end.
(** lines 470-506, the answer to a request: the new locals, m_oReqPacket and m_nAnswIdx *)
Inductive answer := Throws | Undefined | Answer (w : wst) (p : packet) (a : Z).
Definition fetch (w : wst) (req : Z) (e : bool) : answer :=
  match src req with
  | None => Throws
  | Some l => Answer (Wst (size w) [] (buf w) (u64 (req + 1)) (u64 (req + 1)) NIL NIL (tgt_idx w) (tgt w) e) (Own l) req
  end.
Definition reply (g : Z) (w : wst) (req : Z) (p : packet) (a : Z) : answer :=
  if req =? u64 (expected w - 1) then Answer w p a
  else match cache w with
       | [] => fetch w req (at_end w)
       | _ => if (req <? precache w) && (expected w <=? req)
              then match pop g (Z.to_nat (u64 (req - expected w + 1))) w p with None => Undefined | Some (w', p') => Answer w' p' req end
              else fetch w req false
       end.

(** the whole object and its threads *)
Inductive client_pc := Idle | Waiting (i na : Z) | Joining (next_size : option Z).
(** [true]: still filling the cache for the first time (lines 461-467); [false]: in the loop *)
Record st := St { active : bool; got : bool; req : Z; answ : Z; last_idx : Z; last_p : packet; req_p : packet; exc : bool; gen : Z; worker : option (bool * wst); client : client_pc }.
(** lines 302-308 *)
Definition init : st := St false false NIL NIL NIL (Own []) (Own []) false 0 None Idle.
(** the bytes behind a matrix; [None]: the buffer it points into is gone *)
Definition content (s : st) (p : packet) : option (list Z) :=
  match p with
  | Own l => Some l
  | View g off n => match worker s with Some (_, w) => if g =? gen s then Some (read (buf w) off n) else None | None => None end
  end.
Inductive obs := Returned (i : Z) (c : option (list Z)) | Threw | Failed.
Inductive act :=
| Get (i : Z)      (* getPacket is called *)
| Timeout          (* its wait times out and the answer index is read, lines 334-335 *)
| Finish           (* its wait ends, lines 342-355 *)
| Start (n : Z) | Stop   (* startAsyncPrecaching and stopAsyncPrecaching are called *)
| Joined           (* their join returns *)
| WFilled          (* the first filling of the cache ends by time *)
| WCache           (* the worker tries to cache a packet, lines 463-466, 516-522 *)
| WIdle            (* the worker wakes up and has nothing to do *)
| WAnswer.         (* the worker wakes up and sees a request *)

Definition set_worker (s : st) (w : option (bool * wst)) : st := St (active s) (got s) (req s) (answ s) (last_idx s) (last_p s) (req_p s) (exc s) (gen s) w (client s).
(** line 468: the worker leaves the loop when inactive *)
Definition loop_head (s : st) (w : wst) : st := set_worker s (if active s then Some (false, w) else None).
(** lines 534-536 *)
Definition die (s : st) : st := St (active s) (got s) (req s) (answ s) (last_idx s) (last_p s) (req_p s) true (gen s) None (client s).
Definition set_client (s : st) (c : client_pc) : st := St (active s) (got s) (req s) (answ s) (last_idx s) (last_p s) (req_p s) (exc s) (gen s) (worker s) c.
Section Sizes.
(** CACHE_MIN_SIZE and CACHE_MAX_SIZE, lines 29-30 *)
Variables cmin cmax : Z.
(** lines 363-373, after the call of stopAsyncPrecaching has returned *)
Definition spawn (s : st) (n : Z) : st :=
  if 0 <? n then St true false NIL NIL (last_idx s) (last_p s) (req_p s) false (gen s + 1) (Some (true, winit (Z.max (Z.min n cmax) cmin))) Idle
  else set_client s Idle.
(** what follows the join in lines 383-386, and lines 363-373 for a start *)
Definition after_join (s : st) (n : option Z) : st * list obs :=
  if got s then (set_client s Idle, [Failed])
  else if exc s then (set_client s Idle, [Threw])
  else match n with None => (set_client s Idle, []) | Some n => (spawn s n, []) end.
Definition stop_call (s : st) (n : option Z) : st * list obs :=
  if active s then (St false (got s) (req s) (answ s) (last_idx s) (last_p s) (req_p s) (exc s) (gen s) (worker s) (Joining n), [])
  else if exc s then (s, [Threw])
  else match n with None => (s, []) | Some n => (spawn s n, []) end.
(** one step; a step that is not possible changes nothing *)
Definition step (s : st) (a : act) : st * list obs :=
  match a, client s with
  | Get i, Idle =>
      if i =? last_idx s then (s, [Returned i (content s (last_p s))])
      else if negb (active s) then
        match src i with
        | None => (s, [Threw])
        | Some l => (St (active s) (got s) (req s) (answ s) i (Own l) (req_p s) (exc s) (gen s) (worker s) Idle, [Returned i (Some l)])
        end
      else if got s then (s, [Failed])
      else (St (active s) true i (answ s) (last_idx s) (last_p s) (req_p s) (exc s) (gen s) (worker s) (Waiting i NIL), [])
  | Timeout, Waiting i na => (set_client s (Waiting i (answ s)), [])
  | Finish, Waiting i na =>
      if active s && negb (exc s) && negb (na =? req s) then (s, [])
      else if negb (active s) then (St (active s) false NIL (answ s) (last_idx s) (last_p s) (req_p s) (exc s) (gen s) (worker s) Idle, [Threw])
      else if exc s then (St false false NIL (answ s) (last_idx s) (last_p s) (req_p s) (exc s) (gen s) (worker s) Idle, [Threw])
      else (St (active s) false NIL (answ s) na (req_p s) (req_p s) (exc s) (gen s) (worker s) Idle, [Returned i (content s (req_p s))])
  | Start n, Idle => stop_call s (Some n)
  | Stop, Idle => stop_call s None
  | Joined, Joining n => match worker s with Some _ => (s, []) | None => after_join s n end
  | WFilled, _ => match worker s with Some (true, w) => (loop_head s w, []) | _ => (s, []) end
  | WCache, _ =>
      match worker s with
      | Some (true, w) => match cache_one w with None => (die s, []) | Some (w, n) => (if n =? 0 then loop_head s w else set_worker s (Some (true, w)), []) end
      | Some (false, w) => if got s || at_end w then (s, []) else match cache_one w with None => (die s, []) | Some (w, _) => (loop_head s w, []) end
      | None => (s, [])
      end
  | WIdle, _ => match worker s with Some (false, w) => if got s then (s, []) else (loop_head s w, []) | _ => (s, []) end
  | WAnswer, _ =>
      match worker s with
      | Some (false, w) =>
          if got s then
            match reply (gen s) w (req s) (req_p s) (answ s) with
            | Throws => (die s, [])
            | Undefined => (s, [Failed])
            | Answer w p a => (loop_head (St (active s) (got s) (req s) a (last_idx s) (last_p s) p (exc s) (gen s) (worker s) (client s)) w, [])
            end
          else (s, [])
      | _ => (s, [])
      end
  | _, _ => (s, [])
  end.
Fixpoint run (s : st) (l : list act) : st * list obs :=
  match l with [] => (s, []) | a :: l => let '(s1, o1) := step s a in let '(s2, o2) := run s1 l in (s2, o1 ++ o2) end.
End Sizes.
End Source.
