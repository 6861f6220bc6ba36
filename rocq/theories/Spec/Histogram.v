(** Order statistics without sorting: v is the element of rank k (from 0) of a list iff it occurs in it, at most k elements are smaller and
    more than k are smaller or equal. *)
From Coq Require Import ZArith List Bool Permutation.
From Verif Require Import Lib.Grid.
Import ListNotations.
Open Scope Z_scope.

Definition rank_value (l : list Z) (k v : Z) : Prop :=
  In v l /\ count (fun w => w <? v) l <= k < count (fun w => w <=? v) l.
(** pixels whose mask byte is not zero *)
Definition selected (px : list Z) (mask : option (list Z)) : list Z :=
  match mask with None => px | Some m => map fst (filter (fun p => negb (snd p =? 0)) (combine px m)) end.
Definition in_depth (depth16 : bool) (px : list Z) : Prop := forall v, In v px -> 0 <= v < (if depth16 then 65536 else 256).
(** contract of std::nth_element *)
Definition nth_element_contract (nthel : list Z -> nat -> list Z) : Prop :=
  forall l k, (k < length l)%nat -> Permutation l (nthel l k) /\
    (forall i, (i < k)%nat -> nth i (nthel l k) 0 <= nth k (nthel l k) 0) /\
    (forall i, (k < i < length l)%nat -> nth k (nthel l k) 0 <= nth i (nthel l k) 0).
(** pixels of the image at Chebyshev distance at most off *)
Definition near (off y x : Z) (p : Z * Z) : bool := (Z.abs (fst p - y) <=? off) && (Z.abs (snd p - x) <=? off).
Definition near_vals (f m : Z -> Z -> Z) (rows cols off y x : Z) : list Z :=
  map (fun p => f (fst p) (snd p)) (filter (fun p => near off y x p && negb (m (fst p) (snd p) =? 0)) (grid 0 rows 0 cols)).
