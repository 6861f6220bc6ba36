(** lv::write / lv::read, modules/utils/src/opencv.cpp:440-628, binary, LZ4 and plain text archives.
    Files are byte lists (little-endian host). cv::Mat::create and the element size table are OpenCV's (trusted transcription):
    sizes must be non-negative, at most 32 dimensions, type masked to 12 bits, a call with unchanged type and sizes keeps the buffer.
    Simplified: allocation never fails; LZ4 is an arbitrary pair of functions; the FILESTORAGE archive (cv::FileStorage) is not modelled. *)
From Coq Require Import ZArith List Bool.
From Verif Require Import Model.Simd.
Import ListNotations.
Open Scope Z_scope.

(** a continuous cv::Mat: type, sizes, data *)
Record nmat := Nmat { ty : Z; dims : list Z; bytes : list Z }.
(** CV_ELEM_SIZE: depth = low 3 bits, channels - 1 = next 9 bits *)
Definition depth_bytes (d : Z) : Z := nth (Z.to_nat d) [1; 1; 2; 2; 4; 4; 8; 8] 1.
Definition esz (t : Z) : Z := depth_bytes (t mod 8) * (t / 8 mod 512 + 1).
Definition prod (l : list Z) : Z := fold_right Z.mul 1 l.
(** Mat::total, 0 without dimensions *)
Definition ntotal (l : list Z) : Z := match l with [] => 0 | _ => prod l end.

(** opencv.cpp:514-530 header fields, one by one *)
Definition header (m : nmat) : list Z :=
  unle 4 (ty m) ++ unle 8 (esz (ty m)) ++ unle 8 (ntotal (dims m)) ++ unle 4 (Z.of_nat (length (dims m))) ++ flat_map (unle 4) (dims m).
(** opencv.cpp:531 nElemSize*nElemCount bytes of data *)
Definition write_binary (m : nmat) : list Z := header m ++ firstn (Z.to_nat (esz (ty m) * ntotal (dims m))) (bytes m).

(** istream::read of n bytes into a buffer: the bytes stored and the stream afterwards (remaining bytes, good());
    a failed stream stores nothing, a short read stores what is left and fails *)
Definition stream : Type := (list Z * bool)%type.
Definition get (n : nat) (s : stream) : list Z * stream :=
  let '(r, ok) := s in
  if ok then (if Nat.ltb (length r) n then (r, ([], false)) else (firstn n r, (skipn n r, true))) else ([], s).
(** opencv.cpp:621-622 sizes read into a zero-initialised vector *)
Fixpoint get_sizes (k : nat) (s : stream) : list Z * stream :=
  match k with
  | O => ([], s)
  | S k' => let '(b, s1) := get 4 s in let '(l, s2) := get_sizes k' s1 in (signed32 (le b) :: l, s2)
  end.

Inductive parsed :=
| PUninit                (* nDims used although never read *)
| PThrow                 (* exception from std::vector or cv::Mat::create *)
| POk (t : Z) (l : list Z) (n : Z) (s : stream).  (* masked type, sizes, nElemSize*nElemCount in uint64_t, stream *)

(** opencv.cpp:611-623 (578-590 for LZ4) header and create *)
Definition parse (f : list Z) : parsed :=
  let '(b1, s1) := get 4 (f, true) in
  let '(b2, s2) := get 8 s1 in
  let '(b3, s3) := get 8 s2 in
  let '(b4, s4) := get 4 s3 in
  if negb (snd s4) then PUninit else
  let nd := signed32 (le b4) in
  if (nd <? 0) || (32 <? nd) then PThrow else
  let '(l, s5) := get_sizes (Z.to_nat nd) s4 in
  if forallb (fun x => 0 <=? x) l then
    POk (signed32 (le b1) mod 4096) (match l with [a] => [a; 1] | _ => l end) ((le b2 * le b3) mod 2 ^ 64) s5
  else PThrow.

Inductive result :=
| Loaded (m : nmat) (uninit : Z)   (* the matrix, with its last uninit bytes never written *)
| Throws
| Uninit
| Overrun.                         (* bytes stored past the end of the matrix buffer *)

(** bytes allocated by create *)
Definition capacity (t : Z) (l : list Z) : Z := esz t * ntotal l.

(** opencv.cpp:624-625 into a matrix without reusable buffer; checked = the lvAssert_ after the read *)
Definition read_raw (checked : bool) (t : Z) (l : list Z) (n : Z) (s : stream) : result :=
  let '(r, ok) := s in
  let cap := capacity t l in
  let got := if ok && (n <? 2 ^ 63) then Z.min n (Z.of_nat (length r)) else 0 in
  if cap <? got then Overrun
  else if checked && (negb ok || (2 ^ 63 <=? n) || (Z.of_nat (length r) <? n)) then Throws
  else Loaded (Nmat t l (firstn (Z.to_nat got) r)) (cap - got).
Definition read_binary (f : list Z) : result :=
  match parse f with PUninit => Uninit | PThrow => Throws | POk t l n s => read_raw true t l n s end.

(** opencv.cpp:480-512; comp returns [] where LZ4_compress_default returns 0; None = assertion *)
Definition write_lz4 (comp : list Z -> list Z) (m : nmat) : option (list Z) :=
  let n := esz (ty m) * ntotal (dims m) in
  let raw := firstn (Z.to_nat n) (bytes m) in
  if 0 <? n then
    if n <? 2 ^ 31 - 1 then
      let c := comp raw in
      if Z.of_nat (length c) <=? n then
        Some (header m ++ unle 4 (Z.of_nat (length c)) ++ (match c with [] => raw | _ => c end))
      else None
    else None
  else Some (header m ++ unle 4 0).
(** opencv.cpp:574-606; decomp bytes capacity, None where LZ4_decompress_safe returns a negative value.
    Note that the raw branch (line 597) is not followed by a check of the stream *)
Definition read_lz4 (decomp : list Z -> Z -> option (list Z)) (f : list Z) : result :=
  match parse f with
  | PUninit => Uninit
  | PThrow => Throws
  | POk t l n s =>
    if negb (snd s) then Throws else
    if ntotal l =? 0 then Loaded (Nmat t l []) 0 else
    let '(b, s1) := get 4 s in
    if negb (snd s1) then Uninit else
    let c := signed32 (le b) in
    if (c <? 0) || (n <? c) then Throws else
    if c =? 0 then read_raw false t l n s1 else
    let '(d, s2) := get (Z.to_nat c) s1 in
    if negb (snd s2) then Throws else
    if 2 ^ 31 - 1 <=? n then Throws else
    match decomp d n with
    | None => Throws
    | Some x => if capacity t l <? Z.of_nat (length x) then Overrun
                else if Z.of_nat (length x) =? n then Loaded (Nmat t l x) (capacity t l - n) else Throws
    end
  end.

(** a 2-D matrix header over a shared byte buffer (a region of interest when vstep exceeds the row size) *)
Record view := View { vty : Z; vrows : Z; vcols : Z; vstep : Z; voff : Z; vmem : list Z }.
Definition rowbytes (v : view) : Z := vcols v * esz (vty v).
Definition row_at (v : view) (i : nat) : list Z :=
  firstn (Z.to_nat (rowbytes v)) (skipn (Z.to_nat (voff v + Z.of_nat i * vstep v)) (vmem v)).
(** the elements in raster order, i.e. what clone() copies *)
Definition view_bytes (v : view) : list Z := flat_map (row_at v) (seq 0 (Z.to_nat (vrows v))).
Definition continuous (v : view) : bool := (vrows v =? 1) || (vstep v =? rowbytes v).
(** opencv.cpp:442 clone unless continuous, then 514-533 *)
Definition write_view (v : view) : list Z :=
  write_binary (Nmat (vty v) [vrows v; vcols v]
    (if continuous v then skipn (Z.to_nat (voff v)) (vmem v) else view_bytes v)).

Definition store (off : nat) (d mem : list Z) : list Z := firstn off mem ++ d ++ skipn (off + length d) mem.
Inductive into_result :=
| Fresh (r : result)            (* create allocated (or threw) *)
| InPlace (v : view)            (* create kept the buffer, raw bytes stored at its data pointer *)
| InPlaceThrows (v : view)      (* same, but the read was short: the buffer is modified before the exception *)
| InPlaceOverrun.
(** read into an existing 2-D matrix: create() returns immediately when type and sizes agree (even for a region of interest) *)
Definition read_into (f : list Z) (v : view) : into_result :=
  match parse f with
  | POk t l n s =>
    if (t =? vty v) && match l with [a; b] => (a =? vrows v) && (b =? vcols v) | _ => false end then
      let '(r, ok) := s in
      let got := if ok && (n <? 2 ^ 63) then Z.min n (Z.of_nat (length r)) else 0 in
      if Z.of_nat (length (vmem v)) - voff v <? got then InPlaceOverrun else
      let v' := View (vty v) (vrows v) (vcols v) (vstep v) (voff v) (store (Z.to_nat (voff v)) (firstn (Z.to_nat got) r) (vmem v)) in
      if negb ok || (2 ^ 63 <=? n) || (Z.of_nat (length r) <? n) then InPlaceThrows v' else InPlace v'
    else Fresh (read_binary f)
  | _ => Fresh (read_binary f)
  end.

(** plain text: an integral value is printed with the default precision of six significant digits (opencv.cpp:469) and parsed
    back (565); the decimal written is the value rounded half to even at the sixth digit *)
Fixpoint scale (fuel : nat) (p a : Z) : Z := match fuel with O => p | S k => if a <? 1000000 * p then p else scale k (10 * p) a end.
Definition round_even (a p : Z) : Z :=
  let q := a / p in let r := a mod p in
  if 2 * r <? p then q else if p <? 2 * r then q + 1 else if Z.even q then q else q + 1.
Definition plain (x : Z) : Z :=
  let a := Z.abs x in let p := scale 20 1 a in Z.sgn x * (round_even a p * p).
