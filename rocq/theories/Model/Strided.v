(* Views of matrices with steps: modules/utils/include/litiv/utils/opencv.hpp lines 605-637 (getBasicMat, getSubMat), 692-735 (squeeze), 813-837 (concat) and 1127-1163 (isEqual, isNearlyEqual).
   Memory is addressed in scalars, as are steps; scalars are integers, and the difference of two is exact as double. *)
From Coq Require Import ZArith List Bool.
From Verif Require Import Lib.Grid.
Import ListNotations.
Open Scope Z_scope.

Record mat := { sizes : list Z; steps : list Z; chans : Z; base : Z; mem : Z -> Z }.
Fixpoint prod (ss : list Z) : Z := match ss with [] => 1 | s :: r => s * prod r end.
Definition empty (m : mat) : bool := match sizes m with [] => true | ss => prod ss =? 0 end.
(* where the elements are, in the order of copyTo and of the iterators of cv::Mat *)
Fixpoint offs (ss ts : list Z) (o : Z) : list Z :=
  match ss, ts with
  | [], _ => [o]
  | s :: ss, t :: ts => flat_map (fun i => offs ss ts (o + i * t)) (zrange 0 s)
  | _ :: _, [] => []
  end.
Definition scalars (c : Z) (l : list Z) : list Z := flat_map (fun o => zrange o c) l.
(* the steps of cv::Mat(dims,sizes,type,data) without steps given *)
Fixpoint dense (ss : list Z) : list Z := match ss with [] => [] | _ :: r => prod r :: dense r end.
(* cv::Mat::isContinuous, from the first dimension with more than one element on (the limit on the total size is left out) *)
Fixpoint tight (ss ts : list Z) : bool :=
  match ss, ts with
  | _ :: (s2 :: _) as r, t1 :: (t2 :: _) as q => (t1 <=? t2 * s2) && tight r q
  | _, _ => true
  end.
Fixpoint continuous (ss ts : list Z) : bool := match ss, ts with s :: r, t :: q => if s <=? 1 then continuous r q else tight ss ts | _, _ => true end.

(* lines 605-616: where the scalars of the result are; its steps are those of its sizes *)
Definition basic_sizes (m : mat) : list Z := if chans m =? 1 then sizes m else sizes m ++ [chans m].
Definition basic (m : mat) : list Z := offs (basic_sizes m) (dense (basic_sizes m)) (base m).

(* lines 618-637: the dimension d cut to [a,b); None is a failed assertion, Stray a write in front of vRanges *)
Inductive view := Sub (m : mat) | Stray.
Fixpoint set_nth (d : nat) (x : Z) (l : list Z) : list Z := match l, d with [], _ => [] | _ :: r, O => x :: r | y :: r, S d => y :: set_nth d x r end.
Definition sub (m : mat) (d a b : Z) : option view :=
  if negb (d <? Z.of_nat (length (sizes m))) then None else
  if d <? 0 then Some Stray else
  if negb ((0 <=? a) && (b <=? nth (Z.to_nat d) (sizes m) 0)) then None else
  Some (Sub {| sizes := set_nth (Z.to_nat d) (b - a) (sizes m); steps := steps m; chans := chans m; base := base m + a * nth (Z.to_nat d) (steps m) 0; mem := mem m |}).
Definition sub_one (m : mat) (d a : Z) : option view :=
  if negb (d <? Z.of_nat (length (sizes m))) then None else
  if d <? 0 then Some Stray else
  if negb ((0 <=? a) && (a <? nth (Z.to_nat d) (sizes m) 0)) then None else sub m d a (a + 1).

(* lines 692-727: the sizes of the result and where its elements come from *)
Definition longer (m : mat) : list (Z * Z) := filter (fun p => 1 <? fst p) (combine (sizes m) (steps m)).
Definition squeeze (m : mat) : list Z * list Z :=
  if (Z.of_nat (length (sizes m)) <=? 2) || (prod (sizes m) =? 0) then (sizes m, offs (sizes m) (steps m) (base m)) else
  match longer m with
  | [] => ([1; 1], [base m])
  | [(s, t)] => ([1; s], offs [s; 1] [t; chans m] (base m))
  | l => (map fst l, offs (map fst l ++ [1]) (map snd l ++ [chans m]) (base m))
  end.

(* lines 1127-1142: None is a failed assertion; whole is whether T is the type of elements, otherwise of scalars *)
Definition shape_eqb (a b : mat) : bool := (if list_eq_dec Z.eq_dec (sizes a) (sizes b) then true else false) && (chans a =? chans b).
Definition agree (p : Z -> Z -> bool) (a b : mat) (la lb : list Z) : bool := forallb (fun x => p (mem a (fst x)) (mem b (snd x))) (combine la lb).
Definition is_equal (whole : bool) (a b : mat) : option bool :=
  if empty a && empty b then Some true else
  if negb (shape_eqb a b) then Some false else
  if continuous (sizes a) (steps a) && continuous (sizes b) (steps b) then Some (agree Z.eqb a b (zrange (base a) (prod (sizes a) * chans a)) (zrange (base b) (prod (sizes a) * chans a))) else
  if negb (whole || (chans a =? 1)) then None else
  Some (agree Z.eqb a b (scalars (chans a) (offs (sizes a) (steps a) (base a))) (scalars (chans b) (offs (sizes b) (steps b) (base b)))).
(* lines 1144-1163 *)
Definition is_nearly_equal (eps : Z) (a b : mat) : bool :=
  if empty a && empty b then true else
  if negb (shape_eqb a b) then false else agree (fun x y => Z.abs (x - y) <=? eps) a b (basic a) (basic b).

(* lines 813-837: images as functions of row and column, with their height and width; resize is cv::resize to the first size *)
Definition image := (Z * Z * (Z -> Z -> Z))%type.
Definition paint (out : Z -> Z -> Z) (y x h w : Z) (im : Z -> Z -> Z) : Z -> Z -> Z := fun r c => if (y <=? r) && (r <? y + h) && (x <=? c) && (c <? x + w) then im (r - y) (c - x) else out r c.
Fixpoint paint_all (resize : image -> Z -> Z -> Z) (hor : bool) (h w k : Z) (l : list image) (out : Z -> Z -> Z) : Z -> Z -> Z :=
  match l with
  | [] => out
  | (h', w', f) :: r => paint_all resize hor h w (k + 1) r (paint out (if hor then 0 else h * k) (if hor then w * k else 0) h w (if (h' =? h) && (w' =? w) then f else resize (h', w', f)))
  end.
Definition concat (resize : image -> Z -> Z -> Z) (hor : bool) (l : list image) (out : Z -> Z -> Z) : option image :=
  match l with
  | [] => None
  | [im] => Some im
  | (h, w, f) :: r => let n := Z.of_nat (length l) in Some (if hor then h else h * n, if hor then w * n else w, paint_all resize hor h w 1 r (paint out 0 0 h w f))
  end.
