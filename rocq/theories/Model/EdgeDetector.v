(** EdgeDetectorLBSP, modules/imgproc/src/EdgeDetectorLBSP.cpp:40-357. Maps are functions of (row, column).
    [None] is an access outside a buffer, or lack of fuel in the flood fill.
    Not modelled: the pointer alignment of the SSE loads, Gaussian smoothing (sigma is always 0), the debug assertions. *)
From Coq Require Import ZArith List Bool.
From Verif Require Import Lib.Grid.
Import ListNotations.
Open Scope Z_scope.

(** ** Lookup pyramid, lines 40-143 *)
(** lines 62-63 *)
Definition half (n : Z) : Z := (n + 1) / 2.
Fixpoint level (n : Z) (l : nat) : Z := match l with O => n | S k => half (level n k) end.
Definition u64 (v : Z) : Z := v mod 18446744073709551616.
(** for(; i<bound; ++i) from i: the indices visited *)
Definition from_to (i bound : Z) : list Z := zrange i (bound - i).
Definition past (i bound : Z) : Z := Z.max i bound.
(** lines 99-141: pixels visited at one level, in order; the flag tells the 16-neighbour lookup (line 116) from the border fill (74-89).
    rows-2 and cols-2 are size_t subtractions *)
Definition visit_row (rows cols r : Z) : list (Z * Z * bool) :=
  map (fun c => (r, c, false)) (from_to 0 2) ++ map (fun c => (r, c, true)) (from_to 2 (u64 (cols - 2))) ++
  map (fun c => (r, c, false)) (from_to (past 2 (u64 (cols - 2))) cols).
Definition border_row (cols r : Z) : list (Z * Z * bool) := map (fun c => (r, c, false)) (from_to 0 cols).
Definition visits (rows cols : Z) : list (Z * Z * bool) :=
  flat_map (border_row cols) (from_to 0 2) ++ flat_map (visit_row rows cols) (from_to 2 (u64 (rows - 2))) ++
  flat_map (border_row cols) (from_to (past 2 (u64 (rows - 2))) rows).
(** lines 75-78,113-115: the pixel's block of the lookup map, which has rows*cols blocks *)
Definition in_lookup (rows cols : Z) (v : Z * Z * bool) : Prop := let '(r, c, _) := v in 0 <= r * cols + c < rows * cols.
(** lines 90-97 and 117-135: pixels of the next level written by a level, and their values; [nb] gives the 16 looked-up values *)
Definition next_writes (rows cols : Z) : list (Z * Z * bool) := filter (fun v => let '(r, c, _) := v in (r mod 2 =? 0) && (c mod 2 =? 0)) (visits rows cols).
Definition next_pos (v : Z * Z * bool) : Z * Z := let '(r, c, _) := v in (r / 2, c / 2).
Definition next_value (img : Z -> Z -> Z) (nb : Z -> Z -> list Z) (v : Z * Z * bool) : Z :=
  let '(r, c, inner) := v in if inner then (fold_right Z.add 0 (nb r c) / 16) mod 256 else img r c.

(** ** Gradient accumulation, lines 216-257 *)
(** (gradx, grady, magnitude); the first two are chars *)
Definition grad := (Z * Z * Z)%type.
(** lines 188-189: the constant 0x7f7fff00 seen as four bytes on a little-endian machine with signed char (lines 233-241 read byte 0 as gradx, 1 as
    grady, 2 as magnitude) *)
Definition default_word : Z := Z.lor (Z.lor (Z.shiftl 127 24) (Z.shiftl 127 16)) (Z.shiftl 255 8).
Definition byte (w : Z) (k : Z) : Z := Z.land (Z.shiftr w (8 * k)) 255.
Definition as_char (b : Z) : Z := if b <? 128 then b else b - 256.
Definition default_grad : grad := (as_char (byte default_word 0), as_char (byte default_word 1), byte default_word 2).
(** lines 190,233-241: std::min(a,b,|.|<|.|) *)
Definition amin (a b : Z) : Z := if Z.abs b <? Z.abs a then b else a.
Definition combine_grad (g v : grad) : grad :=
  let '(gx, gy, m) := g in let '(vx, vy, vm) := v in (amin gx vx, amin gy vy, Z.min m vm).
Definition gmap := Z -> Z -> grad.
Definition gupd (f : gmap) (r c : Z) (v : grad) : gmap := fun y x => if (y =? r) && (x =? c) then v else f y x.
(** lines 242-254: copy to the four pixels of the next finer level, in the same map *)
Definition spread (f : gmap) (r c : Z) (v : grad) : gmap :=
  gupd (gupd (gupd (gupd f (2 * r) (2 * c) v) (2 * r) (2 * c + 1) v) (2 * r + 1) (2 * c) v) (2 * r + 1) (2 * c + 1) v.
Definition acc_pixel (g : nat -> Z -> Z -> grad) (l : nat) (f : gmap) (p : Z * Z) : gmap :=
  let v := combine_grad (g l (fst p) (snd p)) (f (fst p) (snd p)) in
  let f := gupd f (fst p) (snd p) v in match l with O => f | _ => spread f (fst p) (snd p) v end.
(** rows and columns from last to first *)
Definition acc_level (g : nat -> Z -> Z -> grad) (H W : Z) (f : gmap) (l : nat) : gmap :=
  fold_left (acc_pixel g l) (rev (grid 0 (level H l) 0 (level W l))) f.
(** levels from the coarsest to 0. The interleaving of level 0 with the labelling below is not modelled: labelling row r happens
    when rows r-2.. of level 0 are complete, and reads only these *)
Definition accumulate (g : nat -> Z -> Z -> grad) (H W : Z) (L : nat) : gmap :=
  fold_left (acc_level g H W) (rev (seq 0 L)) (fun _ _ => default_grad).

(** ** Candidates, lines 273-304 *)
(** imgproc.hpp:160-199 with half window 2, on magnitudes (dr,dc is the direction) *)
Definition locmax (f : Z -> Z -> Z) (r c dr dc : Z) : bool :=
  (f (r - dr) (c - dc) <? f r c) && (f (r - 2 * dr) (c - 2 * dc) <? f r c) &&
  ((f (r + dr) (c + dc) <=? f r c) && (f (r + 2 * dr) (c + 2 * dc) <=? f r c)).
(** lines 278-297 *)
Definition tg22 : Z := 13573.
Inductive sector := Flat | Vertical | Diag (inv : bool) | AnyDiag.
Definition sector_of (gx gy : Z) : sector :=
  let y := Z.abs gy * 32768 in let t22 := Z.abs gx * tg22 in
  if y <? t22 then Flat
  else if t22 + Z.abs gx * 65536 <? y then Vertical
  else if (gx =? 0) && (gy =? 0) then AnyDiag else Diag (0 <=? Z.lxor gx gy).
Definition diag_dir (inv : bool) : Z := if inv then -1 else 1.
Definition is_max (mag : Z -> Z -> Z) (s : sector) (r c : Z) : bool :=
  match s with
  | Flat => locmax mag r c 0 1
  | Vertical => locmax mag r c 1 0
  | Diag inv => locmax mag r c 1 (diag_dir inv)
  | AnyDiag => locmax mag r c 1 (diag_dir true) || locmax mag r c 1 (diag_dir false)
  end.
(** the gradient map outside the image: padding of zeros (lines 182-183,258-259). Simplified: with an odd number of rows the row just below the
    image may hold a copy of coarser values; it is only read for the last two image rows, whose magnitude is 0 *)
Definition mag_at (f : gmap) (H W r c : Z) : Z := if (0 <=? r) && (r <? H) && ((0 <=? c) && (c <? W)) then snd (f r c) else 0.
Definition candidate (f : gmap) (H W low r c : Z) : bool :=
  let m := mag_at f H W r c in let '(gx, gy, _) := f r c in (low <=? m) && is_max (mag_at f H W) (sector_of gx gy) r c.

(** ** Labelling and flood fill, lines 184-215, 260-357, over an abstract set of candidates and strong pixels of the image *)
Section Hysteresis.
Variables (H W : Z) (cand strong : Z -> Z -> bool).
(** padded map with rows 0..H+3 and columns 0..W+3; image column c is at c+2 *)
Definition emap := Z -> Z -> Z.
Definition eupd (f : emap) (p q v : Z) : emap := fun y x => if (y =? p) && (x =? q) then v else f y x.
Record state := St { mp : emap; stk : list (Z * Z); cap : Z; nbmax : bool }.
(** read and write of the padded map *)
Definition inmap (p q : Z) : bool := let a := p * (W + 4) + q in (0 <=? a) && (a <? (H + 4) * (W + 4)).
Definition push (s : state) (p q : Z) : option state :=
  if inmap p q && (Z.of_nat (length (stk s)) <? cap s) then Some (St (eupd (mp s) p q 2) ((p, q) :: stk s) (cap s) (nbmax s)) else None.
(** lines 207-215 *)
Definition stack_check (s : state) (n : Z) : state :=
  let used := Z.of_nat (length (stk s)) in
  St (mp s) (stk s) (if cap s <? used + n then Z.max (cap s * 2) (used + n) else cap s) (nbmax s).
(** lines 312-324; at loop index r the gradients are those of image row r+2 (line 261) and the labels go to row r+2 of the padded map (line 262),
    so image row p labels row p of the padded map *)
Definition label_pixel (p : Z) (st : option state) (c : Z) : option state :=
  match st with
  | None => None
  | Some s =>
    if cand p c then
      if negb (inmap (p + 1) (c + 2)) then None else
      if negb (nbmax s) && strong p c && negb (mp s (p + 1) (c + 2) =? 2)
      then match push s p (c + 2) with Some s' => Some (St (mp s') (stk s') (cap s') true) | None => None end
      else Some (St (eupd (mp s) p (c + 2) 0) (stk s) (cap s) (nbmax s))
    else Some (St (eupd (mp s) p (c + 2) 1) (stk s) (cap s) false)
  end.
(** lines 263-266 *)
Definition start_row (p : Z) (s : state) : state :=
  let f := fun y x => if (y =? p) && (((0 <=? x) && (x <? 2)) || ((W + 2 <=? x) && (x <? W + 4))) then 1 else mp s y x in
  let s := stack_check (St f (stk s) (cap s) (nbmax s)) W in St (mp s) (stk s) (cap s) false.
Definition label_row (st : option state) (p : Z) : option state :=
  fold_left (label_pixel p) (zrange 0 W) (match st with Some s => Some (start_row p s) | None => None end).
(** lines 184-185,194-195: the first and last two rows are set to 1, the others keep what the buffer held *)
Definition init (stale : emap) (oldcap : Z) : state :=
  St (fun p q => if ((0 <=? p) && (p <? 2)) || ((H + 2 <=? p) && (p <? H + 4)) then 1 else stale p q) []
     (Z.max (Z.max 1024 ((H + 4) * (W + 4) / 8)) oldcap) false.
Definition label_all (s : state) : option state := fold_left label_row (rev (zrange 0 H)) (Some s).
(** lines 332-351 *)
Definition neighbours (p q : Z) : list (Z * Z) :=
  [(p, q - 1); (p, q + 1); (p - 1, q - 1); (p - 1, q); (p - 1, q + 1); (p + 1, q - 1); (p + 1, q); (p + 1, q + 1)].
Definition visit (st : option state) (n : Z * Z) : option state :=
  match st with
  | None => None
  | Some s => if negb (inmap (fst n) (snd n)) then None else
              if mp s (fst n) (snd n) =? 0 then push s (fst n) (snd n) else Some s
  end.
Fixpoint flood (fuel : nat) (s : state) : option state :=
  match stk s with
  | [] => Some s
  | _ :: _ =>
    match fuel with
    | O => None
    | S k => let s := stack_check s 8 in
             match stk s with
             | [] => Some s
             | (p, q) :: r => match fold_left visit (neighbours p q) (Some (St (mp s) r (cap s) (nbmax s))) with
                              | Some s' => flood k s' | None => None end
             end
    end
  end.
Definition hysteresis (fuel : nat) (stale : emap) (oldcap : Z) : option state :=
  match label_all (init stale oldcap) with Some s => flood fuel s | None => None end.
(** lines 352-356: output pixel (i,j) is read from row i+2, column j+2: (uchar)-(v>>1) *)
Definition edge_out (s : state) (i j : Z) : Z := (- Z.shiftr (mp s (i + 2) (j + 2)) 1) mod 256.
End Hysteresis.

(** lines 165-357 from the gradients of every level; high and low are the hysteresis thresholds. The label buffer is a member which is resized but
    not cleared: [stale] is what it held, seen with the row length of this call *)
Definition edge_state (g : nat -> Z -> Z -> grad) (H W : Z) (L : nat) (low high : Z) (fuel : nat) (stale : Z -> Z -> Z) (oldcap : Z) : option state :=
  let f := accumulate g H W L in
  hysteresis H W (candidate f H W low) (fun r c => high <=? mag_at f H W r c) fuel stale oldcap.
Definition edge_mask (g : nat -> Z -> Z -> grad) (H W : Z) (L : nat) (low high : Z) (fuel : nat) (stale : Z -> Z -> Z) (oldcap : Z) : option (Z -> Z -> Z) :=
  match edge_state g H W L low high fuel stale oldcap with Some s => Some (edge_out s) | None => None end.
