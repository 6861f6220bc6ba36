(** LU, determinant and invert of modules/utils/include/litiv/utils/math.hpp:996-1130.
    Element arithmetic is a parameter (exact rationals or truncating integers); rounding is not modelled.
    Matrices are functions of (row, column): the row stride arithmetic of the C++ is not modelled for LU, while
    the closed-form 2x2/3x3 inverses work on a flat memory so that overlapping input and output can be expressed. *)
From Coq Require Import List Arith QArith Qcanon ZArith Bool.
From Verif Require Import Lib.Loop.
Import ListNotations.
Set Implicit Arguments.

(** arithmetic of TVal: [neg_inv a] is the C++ [-1/a], None when the division is not defined; [abs_gt a b] is
    [std::abs(a)>std::abs(b)]; [small a] is [double(std::abs(a))<dEps] *)
Record arith (T : Type) : Type := Arith {
  zero : T; one : T; add : T -> T -> T; sub : T -> T -> T; mul : T -> T -> T; opp : T -> T;
  neg_inv : T -> option T; abs_gt : T -> T -> bool; small : T -> bool }.

Definition mat (T : Type) := nat -> nat -> T.
Definition upd {T} (M : mat T) (i j : nat) (v : T) : mat T :=
  fun r c => if (r =? i) && (c =? j) then v else M r c.

Inductive lu_result (T : Type) : Type :=
| LuDegenerate                                   (* returned 0 *)
| LuUndefined                                    (* division by zero *)
| LuDone (sign : Z) (A B : mat T).
Arguments LuDegenerate {T}. Arguments LuUndefined {T}. Arguments LuDone {T}.

Section LU.
Context {T : Type} (o : arith T).

(** math.hpp:1010-1013 pivot search in column i *)
Definition pivot (m i : nat) (A : mat T) : nat :=
  loop (S i) m (fun j k => if abs_gt o (A j i) (A k i) then j else k) i.

(** math.hpp:1017-1018 swap of rows i and k of A from column i on, element by element *)
Definition swap_elem (i k j : nat) (A : mat T) : mat T := upd (upd A i j (A k j)) k j (A i j).
Definition swap_rows (i k lo hi : nat) (A : mat T) : mat T := loop lo hi (fun j A => swap_elem i k j A) A.

(** math.hpp:1027-1031 row update A[j][k] += alpha*A[i][k] for k in [lo,hi) *)
Definition axpy (i j lo hi : nat) (alpha : T) (A : mat T) : mat T :=
  loop lo hi (fun k A => upd A j k (add o (A j k) (mul o alpha (A i k)))) A.

(** math.hpp:1025-1032 elimination below row i *)
Definition eliminate (m n i : nat) (d : T) (AB : mat T * mat T) : mat T * mat T :=
  loop (S i) m (fun j AB => let '(A, B) := AB in
    let alpha := mul o (A j i) d in (axpy i j (S i) m alpha A, axpy i j 0 n alpha B)) AB.

(** math.hpp:1009-1034 one outer iteration *)
Definition lu_step (m n i : nat) (st : lu_result T) : lu_result T :=
  match st with
  | LuDone p A B =>
      let k := pivot m i A in
      if small o (A k i) then LuDegenerate else
      let '(A1, B1, p1) := if k =? i then (A, B, p) else (swap_rows i k i m A, swap_rows i k 0 n B, (- p)%Z) in
      match neg_inv o (A1 i i) with
      | None => LuUndefined
      | Some d => let '(A2, B2) := eliminate m n i d (A1, B1) in LuDone p1 (upd A2 i i (opp o d)) B2
      end
  | _ => st
  end.
Definition lu_forward (m n : nat) (A B : mat T) : lu_result T :=
  loop 0 m (fun i st => lu_step m n i st) (LuDone 1 A B).

(** math.hpp:1035-1044 back substitution, rows m-1 down to 0 (row i = m-1-t) *)
Definition back_row (m n i : nat) (A B : mat T) : mat T :=
  loop 0 n (fun j B =>
    let s := loop (S i) m (fun k s => sub o s (mul o (A i k) (B k j))) (B i j) in
    upd B i j (mul o s (A i i))) B.
Definition lu_back (m n : nat) (A B : mat T) : mat T :=
  loop 0 m (fun t B => back_row m n (m - 1 - t) A B) B.

(** math.hpp:996-1045 [LU]; n=0 stands for B==nullptr *)
Definition LU (m n : nat) (A B : mat T) : lu_result T :=
  match lu_forward m n A B with
  | LuDone p A' B' => LuDone p A' (lu_back m n A' B')
  | r => r
  end.

(** math.hpp:1106-1112 the general branch of [invert] (N>=4): the input is copied first, so aliasing is harmless *)
Definition identity : mat T := fun i j => if i =? j then one o else zero o.
Definition invert_gen (n : nat) (A : mat T) : lu_result T := LU n n A identity.

(** math.hpp:1066-1072 the general branch of [determinant]: 1/(p*prod A[n][n]) in double; the product is returned here *)
Definition det_recip (n : nat) (A : mat T) : option T :=
  match LU n 0 A A with
  | LuDone p A' _ => Some (loop 0 n (fun i acc => mul o acc (A' i i)) (if (p =? 1)%Z then one o else opp o (one o)))
  | _ => None
  end.
End LU.

(** exact rationals; the tolerance dEps is a parameter *)
Definition Qc_abs (a : Qc) : Qc := if Qclt_le_dec a 0 then (- a)%Qc else a.
Definition Qc_arith (eps : Qc) : arith Qc :=
  {| zero := 0%Qc; one := 1%Qc; add := Qcplus; sub := Qcminus; mul := Qcmult; opp := Qcopp;
     neg_inv := fun a => if Qc_eq_dec a 0 then None else Some (- (/ a))%Qc;
     abs_gt := fun a b => if Qclt_le_dec (Qc_abs b) (Qc_abs a) then true else false;
     small := fun a => if Qclt_le_dec (Qc_abs a) eps then true else false |}.

(** C++ integer arithmetic without overflow: -1/a truncates, and dEps is 0 (math.hpp:1006) *)
Definition Z_arith : arith Z :=
  {| zero := 0%Z; one := 1%Z; add := Z.add; sub := Z.sub; mul := Z.mul; opp := Z.opp;
     neg_inv := fun a => if (a =? 0)%Z then None else Some (Z.quot (-1) a);
     abs_gt := fun a b => (Z.abs b <? Z.abs a)%Z;
     small := fun _ => false |}.

(** ** closed forms on a flat memory of rationals *)
Open Scope Qc_scope.
Definition memory := Z -> Qc.
Definition wr (m : memory) (a : Z) (v : Qc) : memory := fun x => if (x =? a)%Z then v else m x.

(** math.hpp:1056-1061 determinant<1..3> *)
Definition det1 (p : Z) (m : memory) : Qc := m p.
Definition det2 (p : Z) (m : memory) : Qc :=
  m (p + 0)%Z * m (p + 3)%Z - m (p + 1)%Z * m (p + 2)%Z.
Definition det3 (p : Z) (m : memory) : Qc :=
  let a k := m (p + k)%Z in
  a 0%Z * (a 4%Z * a 8%Z - a 5%Z * a 7%Z) - a 1%Z * (a 3%Z * a 8%Z - a 5%Z * a 6%Z) + a 2%Z * (a 3%Z * a 7%Z - a 4%Z * a 6%Z).

(** math.hpp:1086-1091 *)
Definition invert1 (pin pout : Z) (m : memory) : option memory :=
  if Qc_eq_dec (m pin) 0 then None else Some (wr m pout (/ m pin)).
(** math.hpp:1092-1101, stores in program order *)
Definition invert2 (pin pout : Z) (m : memory) : option memory :=
  let det := det2 pin m in
  if Qc_eq_dec det 0 then None else
  let di := / det in
  let m := wr m (pout + 3)%Z (m (pin + 0)%Z * di) in
  let m := wr m (pout + 0)%Z (m (pin + 3)%Z * di) in
  let m := wr m (pout + 1)%Z (m (pin + 1)%Z * - di) in
  let m := wr m (pout + 2)%Z (m (pin + 2)%Z * - di) in
  Some m.
(** math.hpp:1102-1117; the nine stores out[k] = (in[a]*in[b]-in[c]*in[d])*dDetInv in program order *)
Definition cof (m : memory) (p a b c d : Z) : Qc := m (p + a)%Z * m (p + b)%Z - m (p + c)%Z * m (p + d)%Z.
Definition store3 (pin pout : Z) (di : Qc) (m : memory) (e : Z * (Z * Z * Z * Z)) : memory :=
  let '(k, (a, b, c, d)) := e in wr m (pout + k)%Z (cof m pin a b c d * di).
Definition invert3_stores : list (Z * (Z * Z * Z * Z)) :=
  [(0, (4, 8, 5, 7)); (1, (2, 7, 1, 8)); (2, (1, 5, 2, 4));
   (3, (5, 6, 3, 8)); (4, (0, 8, 2, 6)); (5, (2, 3, 0, 5));
   (6, (3, 7, 4, 6)); (7, (1, 6, 0, 7)); (8, (0, 4, 1, 3))]%Z.
Definition invert3 (pin pout : Z) (m : memory) : option memory :=
  let det := det3 pin m in
  if Qc_eq_dec det 0 then None else
  Some (fold_left (store3 pin pout (/ det)) invert3_stores m).
