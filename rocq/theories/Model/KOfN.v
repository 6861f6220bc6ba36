(* k of n numbers at random: 3rdparty/bsds500/src/kofn.cpp. The random numbers are given as lists, real ones as fractions; values is the array, the pointer values + leftK an offset.
   The choice by k * log(k) between the two ways is a parameter. *)
From Coq Require Import ZArith QArith List Bool.
From Verif Require Import Lib.Grid.
Import ListNotations.
Open Scope Z_scope.

Definition put (v : Z -> Z) (i x : Z) : Z -> Z := fun j => if j =? i then x else v j.

(* x < prob, lines 22-25 *)
Definition chosen (k j n i : Z) (x : Q) : bool := negb (Qle_bool (Qmake (k - j) (Z.to_pos (n - i))) x).
(* _kOfN_largeK, lines 15-30, from index i on: j, the values and the random numbers left; None if there are no more *)
Fixpoint large (m : nat) (i n k j : Z) (xs : list Q) (values : Z -> Z) : option (Z * (Z -> Z) * list Q) :=
  match m with
  | O => Some (j, values, xs)
  | S m => match xs with
           | [] => None
           | x :: xs => if chosen k j n i x then large m (i + 1) n k (j + 1) xs (put values j i) else large m (i + 1) n k j xs values
           end
  end.

(* _kOfN_smallK, lines 48-56: from index i on; a random number out of its range is none *)
Fixpoint split (m : nat) (i n leftN leftK rightK : Z) (xs : list Z) : option (Z * Z * list Z) :=
  match m with
  | O => Some (leftK, rightK, xs)
  | S m => match xs with
           | [] => None
           | x :: xs => if negb ((0 <=? x) && (x <=? n - i - 1)) then None else
                        if x <? leftN - leftK then split m (i + 1) n leftN (leftK + 1) rightK xs else split m (i + 1) n leftN leftK (rightK + 1) xs
           end
  end.
(* lines 59-61 *)
Definition shift_right (off leftK k leftN : Z) (v : Z -> Z) : Z -> Z := fold_left (fun v i => put v (off + i) (v (off + i) + leftN)) (zrange leftK (k - leftK)) v.
(* _kOfN_smallK, lines 34-62; fuel bounds the depth *)
Fixpoint small (fuel : nat) (k n off : Z) (xs : list Z) (v : Z -> Z) : option ((Z -> Z) * list Z) :=
  match fuel with
  | O => None
  | S m =>
    if k =? 1 then match xs with [] => None | x :: xs => if (0 <=? x) && (x <=? n - 1) then Some (put v off x, xs) else None end else
    let leftN := Z.quot n 2 in let rightN := n - leftN in
    match split (Z.to_nat k) 0 n leftN 0 0 xs with
    | None => None
    | Some (leftK, rightK, xs) =>
      match (if 0 <? leftK then small m leftK leftN off xs v else Some (v, xs)) with
      | None => None
      | Some (v, xs) =>
        match (if 0 <? rightK then small m rightK rightN (off + leftK) xs v else Some (v, xs)) with
        | None => None
        | Some (v, xs) => Some (shift_right off leftK k leftN v, xs)
        end
      end
    end
  end.
(* kOfN, lines 66-79: the values written, and how many; none for k = 0 *)
Definition kofn (use_small : bool) (k n : Z) (ints : list Z) (reals : list Q) (v : Z -> Z) : option (Z * (Z -> Z)) :=
  if k =? 0 then Some (0, v) else
  if use_small then match small (Z.to_nat n) k n 0 ints v with Some (v, _) => Some (k, v) | None => None end
  else match large (Z.to_nat n) 0 n k 0 reals v with Some (j, v, _) => Some (j, v) | None => None end.
