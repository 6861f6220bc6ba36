(* The ground truths of an image as one mask: modules/datasets/include/litiv/datasets/impl/BSDS500.hpp lines 82-149 (parseData, getRawGT).
   Images are (rows, columns, pixels); text is lists of characters, the slash is 47 and the backslash 92. dScale is num/den with den > 0, exact here and a double in the code; cv::resize with INTER_NEAREST is a parameter. *)
From Coq Require Import ZArith List Bool.
Import ListNotations.
Open Scope Z_scope.

Definition image := (Z * Z * (Z -> Z -> Z))%type.
Definition rows (i : image) : Z := fst (fst i).
Definition cols (i : image) : Z := snd (fst i).
Definition px (i : image) : Z -> Z -> Z := snd i.
(* lines 114, 132 and 138: the sizes accepted *)
Definition known (i : image) : bool := ((rows i =? 481) && (cols i =? 321)) || ((rows i =? 321) && (cols i =? 481)).
Record scale := { num : Z; den : Z }.
(* int(a*dScale) of a not negative number *)
Definition scaled (s : scale) (a : Z) : Z := a * num s / den s.
(* line 117: m_vInputInfos; line 118: m_vGTInfos of an input with n ground truths; rows, columns *)
Definition input_size (s : scale) (i : image) : Z * Z := (scaled s (rows i), scaled s (cols i)).
Definition gt_size (s : scale) (i : image) (n : Z) : Z * Z := (scaled s (rows i * n), scaled s (cols i)).
Definition size_eqb (a b : Z * Z) : bool := (fst a =? fst b) && (snd a =? snd b).
(* lines 133-134 and 139-140 *)
Definition fit (resize : Z * Z -> image -> Z -> Z -> Z) (sz : Z * Z) (i : image) : image := if size_eqb (fst i) sz then i else (fst sz, snd sz, resize sz i).
(* line 142: copyTo a rectangle of oGTMask *)
Definition put (out : Z -> Z -> Z) (h w k : Z) (im : Z -> Z -> Z) : Z -> Z -> Z := fun r c => if (h * k <=? r) && (r <? h * k + h) && (0 <=? c) && (c <? w) then im (r - h * k) c else out r c.
(* lines 136-143, from ground truth k on; None is a failed assertion *)
Fixpoint stack (resize : Z * Z -> image -> Z -> Z -> Z) (sz ref : Z * Z) (k : Z) (l : list image) (out : Z -> Z -> Z) : option (Z -> Z -> Z) :=
  match l with
  | [] => Some out
  | i :: r => if negb (known i) then None else
              let f := fit resize sz i in
              if negb (size_eqb (fst f) ref) then None else stack resize sz ref (k + 1) r (put out (fst ref) (snd ref) k (px f))
  end.
(* lines 129-145: the mask of an input whose ground truths are l; out is what oGTMask holds before *)
Definition raw_gt (resize : Z * Z -> image -> Z -> Z -> Z) (s : scale) (input : image) (l : list image) (out : Z -> Z -> Z) : option image :=
  match l with
  | [] => None
  | i :: _ => if negb (known i) then None else
              let ref := fst (fit resize (input_size s input) i) in
              match stack resize (input_size s input) ref 0 l out with
              | None => None
              | Some m => let n := Z.of_nat (length l) in
                          if size_eqb (fst ref * n, snd ref) (gt_size s input n) then Some (fst ref * n, snd ref, m) else None
              end
  end.

(* lines 101-104: what is behind the last slash, the whole text if there is none *)
Fixpoint last_name (acc s : list Z) : list Z := match s with [] => acc | c :: r => if (c =? 47) || (c =? 92) then last_name r r else last_name acc r end.
Fixpoint prefix (d s : list Z) : bool := match d, s with [], _ => true | a :: d, b :: s => (a =? b) && prefix d s | _ :: _, [] => false end.
Fixpoint contains (s d : list Z) : bool := prefix d s || match s with [] => false | _ :: r => contains r d end.
(* lines 90-104: the names of inputs and of folders of ground truths, in pairs *)
Definition ordered (inputs folders : list (list Z)) : bool :=
  Nat.eqb (length folders) (length inputs) && forallb (fun p => contains (last_name (fst p) (fst p)) (last_name (snd p) (snd p))) (combine inputs folders).
