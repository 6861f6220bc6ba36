(** lv::calcJointProbHist, modules/features2d/include/litiv/features2d.hpp:77-151. Images are lists of equal length (the elements in
    iteration order) of int-convertible values. A [cv::SparseMat_<int>] is an association list in insertion order (its hash iteration order
    is not modelled), a dense [cv::Mat_<int>] a row-major list. Simplified: the float histograms are exact quotients. [None] is a failed
    assertion, a signed overflow or an access outside a matrix. *)
From Coq Require Import ZArith List Bool.
From Verif Require Import Model.Distances Model.Simd.
Import ListNotations.
Open Scope Z_scope.

Definition key := list Z.
Definition key_eqb (a b : key) : bool := if list_eq_dec Z.eq_dec a b then true else false.
Definition sparse := list (key * Z).
(** lv::getElem on a sparse matrix inserts a zero element when absent *)
Fixpoint incr (m : sparse) (k : key) : sparse :=
  match m with [] => [(k, 1)] | (k', c) :: r => if key_eqb k k' then (k', c + 1) :: r else (k', c) :: incr r k end.
Fixpoint look (m : sparse) (k : key) : Z :=
  match m with [] => 0 | (k', c) :: r => if key_eqb k k' then c else look r k end.

Fixpoint mapM {A B} (f : A -> option B) (l : list A) : option (list B) :=
  match l with [] => Some [] | x :: r => bind (f x) (fun y => bind (mapM f r) (fun ys => Some (y :: ys))) end.
Fixpoint mapM2 {A B C} (f : A -> B -> option C) (l : list A) (m : list B) : option (list C) :=
  match l, m with x :: r, y :: s => bind (f x y) (fun z => bind (mapM2 f r s) (fun zs => Some (z :: zs))) | _, _ => Some [] end.

(** 85-97 value range of an input: the type's limits when skipping the scan (never for int), the true extrema otherwise *)
Definition list_min (l : list Z) : Z := match l with [] => 0 | x :: r => fold_left Z.min r x end.
Definition list_max (l : list Z) : Z := match l with [] => 0 | x :: r => fold_left Z.max r x end.
Definition range_of (skip : option (Z * Z)) (img : list Z) : Z * Z :=
  match skip with Some r => r | None => (list_min img, list_max img) end.
(** 98-99 number of states *)
Definition max_states (step : Z) (rg : Z * Z) : option Z :=
  bind (sop 32 (snd rg - fst rg)) (fun d => let n := (d mod 2^64) / step + 1 in if n <? 2^31 - 1 then Some n else None).
(** 117-120 index of an element *)
Definition elem_idx (step mn v : Z) : option Z :=
  bind (sop 32 (v - mn)) (fun d => Some (if 1 <? step then Z.quot d (signed32 step) else d)).

(** 112-130 the elements, one list of input values each *)
Definition columns (imgs : list (list Z)) : list (list Z) :=
  map (fun e => map (fun img => nth e img 0) imgs) (seq 0 (length (nth 0 imgs []))).

Definition indices (step : Z) (mins : list Z) (col : list Z) : option key := mapM2 (elem_idx step) mins col.

(** sparse matrices (the default) *)
Definition add_sparse (st : list sparse * sparse) (k : key) : list sparse * sparse :=
  (map2 (fun m i => incr m [i]) (fst st) k, incr (snd st) k).
Definition hist_sparse (step : Z) (skips : list (option (Z * Z))) (imgs : list (list Z)) : option (list sparse * sparse) :=
  let rgs := map2 range_of skips imgs in
  bind (mapM (max_states step) rgs) (fun _ =>
  fold_left (fun st col => bind st (fun s => bind (indices step (map fst rgs) col) (fun k => Some (add_sparse s k))))
    (columns imgs) (Some (map (fun _ => []) imgs, []))).

(** dense matrices: row-major offset of an index, [None] outside *)
Fixpoint offset (dims k : list Z) (acc : Z) : option Z :=
  match dims, k with
  | [], [] => Some acc
  | d :: ds, i :: ks => if (0 <=? i) && (i <? d) then offset ds ks (acc * d + i) else None
  | _, _ => None
  end.
Fixpoint bump (l : list Z) (n : nat) : option (list Z) :=
  match l, n with [], _ => None | x :: r, O => Some (x + 1 :: r) | x :: r, S n' => bind (bump r n') (fun r' => Some (x :: r')) end.
Definition incr_dense (dims : list Z) (m : list Z) (k : key) : option (list Z) := bind (offset dims k 0) (fun o => bump m (Z.to_nat o)).
Definition look_dense (dims : list Z) (m : list Z) (k : key) : option Z := bind (offset dims k 0) (fun o => nth_error m (Z.to_nat o)).
Definition volume (dims : list Z) : Z := fold_right Z.mul 1 dims.
Definition zeros (dims : list Z) : list Z := repeat 0 (Z.to_nat (volume dims)).
Definition add_dense (dims : list Z) (st : list (list Z) * list Z) (k : key) : option (list (list Z) * list Z) :=
  bind (mapM2 (fun dm i => incr_dense [fst dm] (snd dm) [i]) (combine dims (fst st)) k) (fun margs =>
  bind (incr_dense dims (snd st) k) (fun j => Some (margs, j))).
Definition hist_dense (step : Z) (skips : list (option (Z * Z))) (imgs : list (list Z)) : option (list Z * list (list Z) * list Z) :=
  let rgs := map2 range_of skips imgs in
  bind (mapM (max_states step) rgs) (fun dims =>
  bind (fold_left (fun st col => bind st (fun s => bind (indices step (map fst rgs) col) (fun k => add_dense dims s k)))
    (columns imgs) (Some (map (fun d => zeros [d]) dims, zeros dims))) (fun st => Some (dims, fst st, snd st))).

(** 141-150 numbers of states reported *)
Definition joint_states_sparse (j : sparse) : Z := Z.of_nat (length j).
