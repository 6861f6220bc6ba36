(* Set functions as tables: 3rdparty/sospd/include/litiv/3rdparty/sospd/submodular-functions.hpp (all but the norms DiffL1, DiffL2 and DiffLInfty).
   A set of elements 0..n-1 is an assignment, an unsigned of 32 bits, 0 <= n < 32; a table is a function of assignments, of which only [0, 2^n) exists. Values are integers without bounds (SegmMatcher.hpp
   line 33: int32_t; the overflow of values is not modelled). The checks of sizes by ASSERT (n < 32, the length of the tables) are assumptions here. *)
From Coq Require Import ZArith List Bool.
From Verif Require Import Lib.Grid.
Import ListNotations.
Open Scope Z_scope.

Definition table : Type := Z -> Z.
Definition upd (f : table) (s v : Z) : table := fun t => if t =? s then v else f t.

(* what a call may do: return, reach undefined behaviour, call exit, or go on for longer than the steps given *)
Inductive run (A : Type) : Type := Done (a : A) | Undefined | Exit | Running.
Arguments Done {A} a.
Arguments Undefined {A}.
Arguments Exit {A}.
Arguments Running {A}.
Definition bind {A B} (r : run A) (k : A -> run B) : run B := match r with Done a => k a | Undefined => Undefined | Exit => Exit | Running => Running end.

(* f(s) + f(s_ij) - f(s_i) - f(s_j), lines 92-93, 141-142 and 338 *)
Definition excess (f : table) (s si sj sij : Z) : Z := f s + f sij - f si - f sj.

(* CheckSubmodular, lines 324-349 *)
Definition check_submodular (n : Z) (f : table) : bool :=
  forallb (fun s =>
    forallb (fun i =>
      let si := Z.lor s (2 ^ i) in
      if si =? s then true else
      forallb (fun j =>
        let sj := Z.lor s (2 ^ j) in
        if sj =? s then true else
        negb (0 <? excess f s si sj (Z.lor si sj))) (zrange (i + 1) (n - (i + 1)))) (zrange 0 n)) (zrange 0 (2 ^ n)).

Section Undef.
(* __builtin_ctz(0): undefined behaviour (None), or some value *)
Variable ctz0 : option Z.
Fixpoint ctzp (p : positive) : Z := match p with xO p => 1 + ctzp p | _ => 0 end.
Definition ctz (v : Z) : run Z := match v with Zpos p => Done (ctzp p) | _ => match ctz0 with Some z => Done z | None => Undefined end end.

(* NextPerm, lines 59-64, in words of 32 bits *)
Definition next_perm (v : Z) : run Z :=
  let t := Z.lor v ((v - 1) mod 2 ^ 32) in
  let nt := 2 ^ 32 - 1 - t in
  bind (ctz v) (fun c => Done (Z.lor ((t + 1) mod 2 ^ 32) (Z.shiftr ((Z.land nt ((- nt) mod 2 ^ 32) - 1) mod 2 ^ 32) (c + 1)))).

(* do { step(s); s = NextPerm(s); } while (s < bound), lines 83-103, 133-152 and 156-159 *)
Fixpoint walk {T : Type} (fuel : nat) (bound s : Z) (step : Z -> T -> T) (st : T) : run T :=
  match fuel with
  | O => Running
  | S m => bind (next_perm s) (fun s' => if s' <? bound then walk m bound s' step (step s st) else Done (step s st))
  end.
(* enough turns for all subsets of one size *)
Definition turns (n : Z) : nat := Z.to_nat (2 ^ n).

(* SubmodularLowerBound: lines 84-98 *)
Definition subtract_from (n : Z) (f : table) (s : Z) : Z :=
  fold_left (fun acc i =>
    let si := Z.lxor s (2 ^ i) in
    if s <=? si then acc else
    fold_left (fun acc j =>
      let sj := Z.lxor s (2 ^ j) in
      if s <=? sj then acc else
      let d := excess f s si sj (Z.land si sj) in
      if acc <? d then d else acc) (zrange (i + 1) (n - (i + 1))) acc) (zrange 0 n) 0.
(* lines 99-101: the table, max_diff and changed *)
Definition lower_step (n s : Z) (st : table * Z * bool) : table * Z * bool :=
  let '(f, d, ch) := st in
  let x := subtract_from n f s in
  (upd f s (f s - x), Z.max d x, ch || (0 <? x)).
(* lines 77-106 *)
Fixpoint lower_levels (early : bool) (n : Z) (ks : list Z) (st : table * Z) : run (table * Z) :=
  match ks with
  | [] => Done st
  | k :: ks =>
      let bound := if k =? 0 then 0 else 2 ^ n - 1 in
      bind (walk (turns n) bound (2 ^ k - 1) (lower_step n) (fst st, snd st, false)) (fun r =>
        let '(f, d, ch) := r in if early && negb ch then Done (f, d) else lower_levels early n ks (f, d))
  end.
(* lines 69-108: the table and the value returned *)
Definition lower_bound (n : Z) (f : table) (early : bool) : run (table * Z) := lower_levels early n (zrange 1 n) (f, 0).

(* UpperBoundCVPR14: lines 134-150, psi *)
Definition raise_step (n : Z) (f : table) (s : Z) (psi : table) : table :=
  fold_left (fun psi i =>
    let si := Z.lor s (2 ^ i) in
    if si =? s then psi else
    fold_left (fun psi j =>
      let sj := Z.lor s (2 ^ j) in
      if sj =? s then psi else
      let d := excess f s si sj (Z.lor si sj) in
      if 0 <? d then
        let shift := Z.quot (d + 1) 2 in
        let psi := upd psi si (Z.max (psi si) shift) in
        upd psi sj (Z.max (psi sj) shift)
      else psi) (zrange (i + 1) (n - (i + 1))) psi) (zrange 0 n) psi.
(* lines 124-161, one k *)
Definition raise_level (n k : Z) (st : table * table) : run (table * table) :=
  let '(f, psi) := st in
  let bound := if k =? 0 then 0 else 2 ^ n - 1 in
  bind (walk (turns n) bound (2 ^ k - 1) (raise_step n f) psi) (fun psi =>
  bind (walk (turns n) (2 ^ n - 1) (2 ^ (k + 1) - 1) (fun s f => upd f s (f s + psi s)) f) (fun f => Done (f, psi))).
Fixpoint raise_levels (n : Z) (ks : list Z) (st : table * table) : run (table * table) :=
  match ks with [] => Done st | k :: ks => bind (raise_level n k st) (raise_levels n ks) end.
(* lines 111-163: k from n-2 to 0, for signed IDX *)
Fixpoint upper_cvpr14 (rounds : nat) (n : Z) (f : table) : run table :=
  if check_submodular n f then Done f else
  match rounds with
  | O => Running
  | S m => bind (raise_levels n (rev (zrange 0 (n - 1))) (f, fun _ => 0)) (fun st => upper_cvpr14 m n (fst st))
  end.

(* ChenUpperBound: lines 219-229, with the break *)
Fixpoint chen_inner (i ik : Z) (js : list Z) (d : table) : table * bool :=
  match js with
  | [] => (d, false)
  | j :: js =>
      if Z.land i (2 ^ j) =? 0 then chen_inner i ik js d else
      let tmp := d (Z.lxor ik (2 ^ j)) in
      if tmp <? Z.quot (d ik) 2 then (d, true)
      else chen_inner i ik js (if d i <? d ik - tmp then upd d i (d ik - tmp) else d)
  end.
(* lines 214-236 *)
Definition chen_element (n i : Z) (d : table) (k : Z) : table :=
  if negb (Z.land i (2 ^ k) =? 0) then d else
  let ik := Z.lor i (2 ^ k) in
  let '(d, t) := chen_inner i ik (zrange 0 n) d in
  if t then let tmp := Z.quot (d ik + 1) 2 in if d i <? tmp then upd d i tmp else d else d.
Definition chen_diff (n : Z) (d : table) : table :=
  fold_left (fun d i => fold_left (chen_element n i) (zrange 0 n) d) (rev (zrange 1 (2 ^ n - 2))) d.
(* lines 166-242: exit(-1) in turn 1001; oldEnergy is energyTable at the start of each turn *)
Fixpoint chen_loop (left : nat) (n : Z) (f : table) : run table :=
  if check_submodular n f then Done f else
  match left with
  | O => Exit
  | S m => bind (lower_bound n f false) (fun r =>
      let d := chen_diff n (fun s => f s - fst r s) in chen_loop m n (fun s => fst r s + d s))
  end.
Definition upper_chen (n : Z) (f : table) : run table := chen_loop 1000 n f.

(* ZeroMarginalSet, lines 245-251: t upwards, in place *)
Definition zero_marginal (n s : Z) (f : table) : table :=
  let base := 2 ^ n - 1 in
  let not_s := Z.land base (2 ^ 32 - 1 - s) in
  fold_left (fun f t => upd f t (f (Z.land t not_s))) (zrange 0 (2 ^ n)) f.

Definition gray (a : Z) : Z := Z.lxor a (Z.shiftr a 1).
(* AddLinear, lines 254-272 *)
Definition add_step (psi : Z -> Z) (st : run (Z * Z * table)) (a : Z) : run (Z * Z * table) :=
  bind st (fun '(sum, last, f) =>
    let g := gray a in
    let diff := Z.lxor g last in
    bind (ctz diff) (fun c =>
      let sum := if Z.land g diff =? 0 then sum - psi c else sum + psi c in
      Done (sum, g, upd f g (f g + sum)))).
Definition add_linear (n : Z) (psi : Z -> Z) (f : table) : run table :=
  bind (fold_left (add_step psi) (zrange 1 (2 ^ n - 1)) (Done (0, 0, f))) (fun st => Done (snd st)).

(* SubtractLinear, lines 275-297 *)
Definition subtract_step (psi1 psi2 : Z -> Z) (st : run (Z * Z * table)) (a : Z) : run (Z * Z * table) :=
  bind st (fun '(sum, last, f) =>
    let g := gray a in
    let diff := Z.lxor g last in
    bind (ctz diff) (fun c =>
      let sum := if Z.land g diff =? 0 then sum + (psi2 c - psi1 c) else sum + (psi1 c - psi2 c) in
      Done (sum, g, upd f g (f g - sum)))).
Definition subtract_linear (n : Z) (psi1 psi2 : Z -> Z) (f : table) : run table :=
  let sum := fold_left (fun sum i => sum + psi2 i) (zrange 0 n) 0 in
  let f := upd f 0 (f 0 - sum) in
  bind (fold_left (subtract_step psi1 psi2) (zrange 1 (2 ^ n - 1)) (Done (sum, 0, f))) (fun st => Done (snd st)).

(* Normalize, lines 300-321: the table and psi; None is a failed ASSERT *)
Definition norm_step (f : table) (st : Z * (Z -> Z)) (i : Z) : Z * (Z -> Z) :=
  let this := Z.lor (fst st) (2 ^ i) in (this, upd (snd st) i (f (fst st) - f this)).
Definition normalize (n : Z) (f : table) (psi : Z -> Z) : run (option (table * (Z -> Z))) :=
  let f0 := fun s => f s - f 0 in
  let psi := snd (fold_left (norm_step f0) (zrange 0 n) (0, psi)) in
  bind (add_linear n psi f0) (fun g =>
    if forallb (fun s => 0 <=? g s) (zrange 0 (2 ^ n)) && (g 0 =? 0) && (g (2 ^ n - 1) =? 0) then Done (Some (g, psi)) else Done None).
End Undef.

(* CheckUpperBoundInvariants, lines 352-367; lowest is numeric_limits<REAL>::min() *)
Definition check_upper (lowest n : Z) (f g : table) : bool :=
  let top := fold_left (fun m s => Z.max (f s) m) (zrange 0 (2 ^ n)) lowest in
  forallb (fun s => negb (g s <? f s)) (zrange 0 (2 ^ n)) && forallb (fun i => negb (top <? g (2 ^ i))) (zrange 0 n) && check_submodular n g.
