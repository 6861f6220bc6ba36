(** lv::packData / lv::unpackData, modules/utils/src/opencv.cpp:630-705. A matrix is given by type, sizes and its elements' bytes in
    raster order (copyTo reads the elements whatever the row stride). Unpacked matrices are headers over the packet's buffer; only
    their content is modelled. *)
From Coq Require Import ZArith List Bool.
From Verif Require Import Model.Archive.
Import ListNotations.
Open Scope Z_scope.

(** default-constructed cv::Mat *)
Definition empty_mat : nmat := Nmat 0 [] [].
Record info := Info { isize : list Z; itype : Z }.
(** opencv.cpp:631-638 *)
Definition infos (ms : list nmat) : list info := map (fun m => Info (dims m) (ty m)) ms.
(** total()*elemSize() *)
Definition packet_size (m : nmat) : Z := ntotal (dims m) * esz (ty m).
(** opencv.cpp:643-654: total size, type of the first non-empty matrix, all-same-type flag *)
Fixpoint scan (ms : list nmat) (tot : Z) (first : option Z) (same : bool) : Z * option Z * bool :=
  match ms with
  | [] => (tot, first, same)
  | m :: r =>
    if 0 <? packet_size m then
      let f := match first with None => ty m | Some t => t end in
      scan r (tot + packet_size m) (Some f) (same && (ty m =? f))
    else scan r tot first same
  end.
(** conversion to int of the column count, opencv.cpp:661,663 *)
Definition to_int (x : Z) : Z := let y := x mod 2 ^ 32 in if y <? 2 ^ 31 then y else y - 2 ^ 32.
(** type and column count of the packet, opencv.cpp:659-663 *)
Definition packet_layout (tot : Z) (first : Z) (same : bool) : Z * Z :=
  if same then (first, to_int (tot / esz first)) else (0, to_int tot).
(** opencv.cpp:630-675; None: cv::Mat::create rejects a negative size or the copy leaves the allocated packet *)
Definition packData (ms : list nmat) : option nmat :=
  match ms with
  | [] => Some empty_mat
  | [m] => Some m
  | _ =>
    let '(tot, first, same) := scan ms 0 None true in
    if tot =? 0 then Some empty_mat else
    let t := match first with Some t => t | None => 0 end in
    let '(pt, cols) := packet_layout tot t same in
    if (cols <? 0) || (cols * esz pt <? tot) then None
    else Some (Nmat pt [1; cols] (flat_map bytes ms))
  end.
(** opencv.cpp:691-701 *)
Fixpoint carve (is : list info) (data : list Z) : list nmat :=
  match is with
  | [] => []
  | i :: r =>
    let n := ntotal (isize i) * esz (itype i) in
    if 0 <? n then Nmat (itype i) (isize i) (firstn (Z.to_nat n) data) :: carve r (skipn (Z.to_nat n) data)
    else empty_mat :: carve r data
  end.
Definition info_total (is : list info) : Z := fold_right (fun i a => ntotal (isize i) * esz (itype i) + a) 0 is.
(** opencv.cpp:677-705; None = failed assertion *)
Definition unpackData (p : nmat) (is : list info) : option (list nmat) :=
  if ntotal (dims p) =? 0 then
    if forallb (fun i => ntotal (isize i) =? 0) is then Some (map (fun _ => empty_mat) is) else None
  else match is with
  | [] => None
  | _ => if (0 <? info_total is) && (info_total is =? ntotal (dims p) * esz (ty p)) then Some (carve is (bytes p)) else None
  end.
