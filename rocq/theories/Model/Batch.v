(** A work batch seen by its user: lv::IDataCounter (modules/datasets/include/litiv/datasets/utils.hpp:844-862, modules/datasets/src/utils.cpp:1295-1318), the consumers' push and resetMetrics
    (utils.hpp:870-945), and startProcessing/stopProcessing of WorkBatch (modules/datasets/include/litiv/datasets.hpp:81-116), one call after the other.
    Evaluation and saving in push are not part of it, nor are the empty startProcessing_impl/stopProcessing_impl and the precacher. Time is what the stop watch says, in some unit. *)
From Coq Require Import ZArith List Bool.
Import ListNotations.
Open Scope Z_scope.

(** a std::promise and the std::future taken from it, kept in members: [told] is the value of the shared state of the promise;
    [fut] is the future: None when it is not valid, else whether it belongs to that promise (it always does here) *)
Record chan := Chan { told : option Z; fut : bool }.
Inductive res := Done | Value (v : Z) | Threw | Blocks.
Record st := St { packets : list Z; count : chan; final_count : Z; time : chan; final_time : Z; processing : bool }.
Definition fresh : chan := Chan None true.
(** promise.set_value: throws std::future_error when there is a value already *)
Definition set_value (c : chan) (v : Z) : option chan := match told c with None => Some (Chan (Some v) (fut c)) | Some _ => None end.
(** future.valid()?(member=future.get()):member: waits for the value; the future is not valid afterwards *)
Definition get (c : chan) (member : Z) : option (chan * Z) := if fut c then match told c with Some v => Some (Chan (told c) false, v) | None => None end else Some (c, member).
(** m_mProcessedPackets.insert, utils.cpp:1305 *)
Definition insert (i : Z) (l : list Z) : list Z := if existsb (Z.eqb i) l then l else i :: l.
(** m_mProcessedPackets.size() *)
Definition size (l : list Z) : Z := Z.of_nat (length l).
(** utils.cpp:1312-1318 *)
Definition resetOutputCount (s : st) : option st :=
  match set_value (count s) (size (packets s)) with Some _ => Some (St [] fresh 0 (time s) (final_time s) (processing s)) | None => None end.
(** utils.hpp:857 and datasets.hpp:119-121: default-constructed promise and future of the time *)
Definition init : st := St [] fresh 0 (Chan None false) 0 false.

Inductive act := Push (i : Z) | Start | Stop (t : Z) | Reset | Get_count | Get_final_count | Get_final_time | Get_time (now : Z).
Definition step (s : st) (a : act) : st * res :=
  match a with
  | Push i => if processing s then (St (insert i (packets s)) (count s) (final_count s) (time s) (final_time s) true, Done) else (s, Threw) (* utils.hpp:884-888 *)
  | Start => (* datasets.hpp:93-104 *)
      if processing s then (s, Done)
      else let s1 := St (packets s) (count s) (final_count s) fresh 0 false in
           match resetOutputCount s1 with
           | Some s2 => (St (packets s2) (count s2) (final_count s2) (time s2) (final_time s2) true, Done)
           | None => (s1, Threw)
           end
  | Stop t => (* datasets.hpp:106-116, with the getFinalProcessTime of line 83 *)
      if processing s then
        match set_value (time s) t with
        | None => (s, Threw)
        | Some c1 => match get c1 (final_time s) with
                     | None => (s, Blocks)
                     | Some (c2, v) => match set_value (count s) (size (packets s)) with
                                       | None => (St (packets s) (count s) (final_count s) c2 v true, Threw)
                                       | Some d => (St (packets s) d (final_count s) c2 v false, Done)
                                       end
                     end
        end
      else (s, Done)
  | Reset => match resetOutputCount s with Some s' => (s', Done) | None => (s, Threw) end (* utils.hpp:878-880 *)
  | Get_count => (s, Value (size (packets s))) (* utils.cpp:1295-1297 *)
  | Get_final_count => match get (count s) (final_count s) with Some (c, v) => (St (packets s) c v (time s) (final_time s) (processing s), Value v) | None => (s, Blocks) end (* utils.cpp:1299-1301 *)
  | Get_final_time => match get (time s) (final_time s) with Some (c, v) => (St (packets s) (count s) (final_count s) c v (processing s), Value v) | None => (s, Blocks) end (* datasets.hpp:83 *)
  | Get_time now => (s, Value (if processing s then now else final_time s)) (* datasets.hpp:81 *)
  end.
(** the calls and what they returned, in order *)
Fixpoint run (s : st) (l : list act) : st * list (act * res) := match l with [] => (s, []) | a :: l => let '(s1, r) := step s a in let '(s2, tr) := run s1 l in (s2, (a, r) :: tr) end.
