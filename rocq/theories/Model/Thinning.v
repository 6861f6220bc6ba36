(** lv::thinning, modules/imgproc/src/imgproc.cpp:25-152. An 8-bit image is a function of (row, column); entries outside
    [0,rows)x[0,cols) are never read. [None] is an access outside an array (undefined behaviour) or, for the outer loop, lack of fuel. *)
From Coq Require Import ZArith List Bool.
From Verif Require Import Lib.Grid.
Import ListNotations.
Open Scope Z_scope.

Definition img := Z -> Z -> Z.
Definition pos (v : Z) : bool := negb (v =? 0).
Definition b2z (b : bool) : Z := if b then 1 else 0.

(** imgproc.cpp:63-71 decision for the pixel (y,x); bIter selects the subiteration *)
Definition zs_mark (bIter : bool) (f : img) (y x : Z) : bool :=
  let nw := pos (f (y - 1) (x - 1)) in let no := pos (f (y - 1) x) in let ne := pos (f (y - 1) (x + 1)) in
  let we := pos (f y (x - 1)) in let ea := pos (f y (x + 1)) in
  let sw := pos (f (y + 1) (x - 1)) in let so := pos (f (y + 1) x) in let se := pos (f (y + 1) (x + 1)) in
  let A := b2z (negb no && ne) + b2z (negb ne && ea) + b2z (negb ea && se) + b2z (negb se && so) +
           b2z (negb so && sw) + b2z (negb sw && we) + b2z (negb we && nw) + b2z (negb nw && no) in
  let B := b2z no + b2z ne + b2z ea + b2z se + b2z so + b2z sw + b2z we + b2z nw in
  let m1 := if negb bIter then b2z no * b2z ea * b2z so else b2z no * b2z ea * b2z we in
  let m2 := if negb bIter then b2z ea * b2z so * b2z we else b2z no * b2z so * b2z we in
  (A =? 1) && (2 <=? B) && (B <=? 6) && (m1 =? 0) && (m2 =? 0).
(** imgproc.cpp:36,51,74: interior pixels only; value & ~marker is 0 where the marker is 255 and the value elsewhere *)
Definition interior (rows cols y x : Z) : bool := (1 <=? y) && (y <? rows - 1) && ((1 <=? x) && (x <? cols - 1)).
Definition zs_pass (rows cols : Z) (bIter : bool) (f : img) : img :=
  fun y x => if interior rows cols y x && zs_mark bIter f y x then 0 else f y x.

(** imgproc.cpp:148 std::equal over all pixels *)
Definition same (rows cols : Z) (f g : img) : bool := forallb (fun p => f (fst p) (snd p) =? g (fst p) (snd p)) (grid 0 rows 0 cols).

(** imgproc.cpp:139-151 *)
Fixpoint zs_loop (fuel : nat) (rows cols : Z) (out prev : img) : option img :=
  match fuel with
  | O => None
  | S k => let o := zs_pass rows cols true (zs_pass rows cols false out) in
           if same rows cols o prev then Some o else zs_loop k rows cols o o
  end.
Inductive outcome := Done (o : option img) | Rejected.
(** imgproc.cpp:130-152, ThinningMode_ZhangSuen *)
Definition thinning_zs (fuel : nat) (rows cols : Z) (f : img) : outcome :=
  if (3 <? rows) && (3 <? cols) then Done (zs_loop fuel rows cols f (fun _ _ => 0)) else Rejected.

(** ** Lam-Lee-Suen *)
(** imgproc.cpp:82-91 *)
Definition lut_of (f : img) (i j : Z) : list Z :=
  [f (i + 1) j; f (i + 1) (j - 1); f i (j - 1); f (i - 1) (j - 1); f (i - 1) j; f (i - 1) (j + 1); f i (j + 1); f (i + 1) (j + 1)].
(** short-circuit operators on table entries *)
Definition rd (l : list Z) (k : nat) : option bool := match nth_error l k with Some v => Some (pos v) | None => None end.
Definition orb_ (a b : option bool) : option bool := match a with Some true => Some true | Some false => b | None => None end.
Definition andb_ (a b : option bool) : option bool := match a with Some true => b | Some false => Some false | None => None end.
Definition negb_ (a : option bool) : option bool := option_map negb a.
Definition add_ (a : option Z) (b : option bool) : option Z := match a, b with Some x, Some y => Some (x + b2z y) | _, _ => None end.
(** one iteration of imgproc.cpp:93-117; [wrapped] is the block of 96-99, compiled only with the MATLAB_IMPL_FIX macro (or MSVC) and followed by the
    other one, which is not conditional *)
Definition lls_block (wrapped : bool) (l : list Z) (k : nat) (st : option Z * option Z * option Z) : option Z * option Z * option Z :=
  let '(xh, n1, n2) := st in
  let a := rd l (2 * (k + 1) - 2) in let b := rd l (2 * (k + 1) - 1) in
  let c := rd l (if wrapped then (2 * (k + 1)) mod 8 else 2 * (k + 1))%nat in
  (add_ xh (andb_ (negb_ a) (orb_ b c)), add_ n1 (orb_ a b), add_ n2 (orb_ b c)).
Definition lls_counts (fix_macro : bool) (l : list Z) : option (Z * Z * Z) :=
  let st := fold_left (fun st k => lls_block false l k (if fix_macro then lls_block true l k st else st)) [0; 1; 2; 3]%nat (Some 0, Some 0, Some 0) in
  match st with (Some xh, Some n1, Some n2) => Some (xh, n1, n2) | _ => None end.
(** imgproc.cpp:118-122 *)
Definition lls_remove (bIter : bool) (l : list Z) (c : Z * Z * Z) : bool :=
  let '(xh, n1, n2) := c in let n_min := Z.min n1 n2 in let a k := pos (nth k l 0) in
  (xh =? 1) && (2 <=? n_min) && (n_min <=? 3) &&
  ((negb bIter && negb ((a 1%nat || a 2%nat || negb (a 7%nat)) && a 0%nat)) ||
   (bIter && negb ((a 5%nat || a 6%nat || negb (a 3%nat)) && a 4%nat))).
Definition upd (f : img) (i j v : Z) : img := fun y x => if (y =? i) && (x =? j) then v else f y x.
Definition lls_pixel (fix_macro bIter : bool) (st : option img) (p : Z * Z) : option img :=
  match st with
  | None => None
  | Some f =>
    if f (fst p) (snd p) =? 0 then Some f else
    let l := lut_of f (fst p) (snd p) in
    match lls_counts fix_macro l with
    | None => None
    | Some c => Some (if lls_remove bIter l c then upd f (fst p) (snd p) 0 else f)
    end
  end.
(** imgproc.cpp:77-128 in place, raster order over the interior *)
Definition lls_pass (fix_macro : bool) (rows cols : Z) (bIter : bool) (f : img) : option img :=
  fold_left (lls_pixel fix_macro bIter) (grid 1 (rows - 2) 1 (cols - 2)) (Some f).
