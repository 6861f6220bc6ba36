(* Superpixel clean-up of SLIC (modules/imgproc/src/SLIC.cpp). *)
From Coq Require Import ZArith List Bool.
From Verif Require Import Lib.Grid.
Import ListNotations.
Open Scope Z_scope.

(* a pixel is a (row, column) pair; label images are functions of it *)
Definition pt := (Z * Z)%type.
Definition image := pt -> Z.
Definition pt_eqb (p q : pt) : bool := (fst p =? fst q) && (snd p =? snd q).
Definition set (f : image) (p : pt) (v : Z) : image := fun q => if pt_eqb q p then v else f q.

(* iDivUp, SLIC.cpp:52-54, for a positive divisor *)
Definition div_up (a b : Z) : Z := if a mod b =? 0 then a / b else a / b + 1.

(* SLIC::initialize, SLIC.cpp:73-88: superpixel diameter and superpixel count;
   None is the integer division by zero.  The float square root is exact here:
   (int)sqrt(nbPx/(float)n) is the integer square root of the integer quotient. *)
Inductive init_type := SIZE | NSPX.
Definition diameter (w h arg : Z) (t : init_type) : Z :=
  match t with SIZE => arg | NSPX => Z.sqrt (w * h / arg) end.
Definition superpixels (w h arg : Z) (t : init_type) : option Z :=
  let d := diameter w h arg t in
  if d =? 0 then None else Some (div_up w d * div_up h d).

(* the size limit, SLIC.cpp:194-195 *)
Definition lims (w h nb : Z) : Z := Z.shiftr (w * h / nb) 2.

Section Enforce.
Context (h w : Z) (lab : image).

(* the bounds test of SLIC.cpp:211 and 222 *)
Definition inside (p : pt) : bool := (0 <=? snd p) && (snd p <? w) && (0 <=? fst p) && (fst p <? h).
(* dx4, dy4: SLIC.cpp:196-197 *)
Definition neighbours (p : pt) : list pt :=
  let '(y, x) := p in [(y, x - 1); (y - 1, x); (y, x + 1); (y + 1, x)].

(* SLIC.cpp:209-216: the label of the last labelled neighbour, or the previous value *)
Definition adjacent_label (new : image) (p : pt) (a : Z) : Z :=
  fold_left (fun a q => if inside q && (0 <=? new q) then new q else a) (neighbours p) a.

(* SLIC.cpp:220-229, one element: pushes the unvisited neighbours of the seed's label *)
Fixpoint visit (l0 label : Z) (ns : list pt) (new : image) : list pt * image :=
  match ns with
  | [] => ([], new)
  | q :: r =>
      if inside q && (new q =? -1) && (l0 =? lab q) then
        let '(ps, n2) := visit l0 label r (set new q label) in (q :: ps, n2)
      else visit l0 label r new
  end.

(* SLIC.cpp:218-231: the loop over elements[c]; [todo] is the part from c on.
   None: the fuel ran out (Proofs show that it never does with the fuel of [step]). *)
Fixpoint flood (fuel : nat) (l0 label : Z) (todo elements : list pt) (new : image) : option (list pt * image) :=
  match fuel with
  | O => None
  | S f =>
      match todo with
      | [] => Some (elements, new)
      | p :: t => let '(ps, n2) := visit l0 label (neighbours p) new in
                  flood f l0 label (t ++ ps) (elements ++ ps) n2
      end
  end.

(* SLIC.cpp:233-235 *)
Definition paint (ps : list pt) (v : Z) (new : image) : image := fold_left (fun f p => set f p v) ps new.

Record state := mk { new : image; label : Z; adj : Z }.

(* the body of the scan, SLIC.cpp:205-240 *)
Definition step (lim : Z) (p : pt) (s : state) : option state :=
  if new s p =? -1 then
    let a := adjacent_label (new s) p (adj s) in
    match flood (S (S (Z.to_nat (h * w)))) (lab p) (label s) [p] [p] (new s) with
    | None => None
    | Some (es, n2) =>
        if Z.of_nat (length es) <=? lim then Some (mk (paint es a n2) (label s) a)
        else Some (mk n2 (label s + 1) a)
    end
  else Some s.

Fixpoint scan (lim : Z) (ps : list pt) (s : state) : option state :=
  match ps with
  | [] => Some s
  | p :: r => match step lim p s with None => None | Some s2 => scan lim r s2 end
  end.

(* SLIC.cpp:193 and 198-202 *)
Definition start : state := mk (fun _ => -1) 0 0.

(* SLIC::enforceConnectivity, SLIC.cpp:192-249: the new labels and their number *)
Definition enforce (lim : Z) : option (image * Z) :=
  match scan lim (grid 0 h 0 w) start with None => None | Some s => Some (new s, label s) end.
End Enforce.
