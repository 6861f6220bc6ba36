(* getUniqueColorMap, modules/utils/include/litiv/utils/opencv.hpp lines 1116-1125 and 1316-1361, with the HSL conversion of Model/Hsl.v in exact
   arithmetic. The image is the list of its elements. Random numbers and the shuffle are given from outside. *)
From Coq Require Import ZArith QArith List Bool.
From Verif Require Import Model.Hsl.
Import ListNotations.
Open Scope Z_scope.

(* unique, lines 1119-1125: std::set, in increasing order *)
Fixpoint set_insert (x : Z) (l : list Z) : list Z :=
  match l with [] => [x] | y :: r => if x <? y then x :: l else if x =? y then l else y :: set_insert x r end.
Definition unique (m : list Z) : list Z := fold_left (fun s x => set_insert x s) m [].

(* lines 1337 and 1339 *)
Definition sampleCount (nColors d nColorIdx : Z) : Z := Z.min (Z.max (nColors / 2 ^ (d + 1)) (360 / 45 - 1)) (nColors - nColorIdx).
Definition currLight (d : Z) : Q :=
  ((1 # 2) + (if 0 <? d then (if d mod 2 =? 0 then (1 # 4) else - (1 # 4)) / inject_Z ((Z.max d 1 + 1) / 2) else 0))%Q.

(* lines 1344-1345: the first angle that is not taken; None: the loop never ends *)
Fixpoint free (fuel : nat) (taken : list Z) (a : Z) : option Z :=
  match fuel with
  | O => None
  | S f => if existsb (Z.eqb a) taken then free f taken ((a + 1) mod 360) else Some a
  end.
(* lines 1342-1349 *)
Fixpoint angles (count : nat) (step : Z) (taken : list Z) (a : Z) : option (list Z) :=
  match count with
  | O => Some []
  | S c =>
    match free 360 taken a with
    | None => None
    | Some x => match angles c step (x :: taken) ((x + step) mod 360) with None => None | Some r => Some (x :: r) end
    end
  end.
(* lines 1336-1350, of the first color to be set on; rand d is the random number of the division *)
Fixpoint divisions (todo : nat) (nColors : Z) (rand : Z -> Z) (d nColorIdx : Z) : option (list (Z * Z * Z)) :=
  match todo with
  | O => Some []
  | S t =>
    if nColorIdx <? nColors then
      let k := sampleCount nColors d nColorIdx in
      match angles (Z.to_nat k) (360 / k) [] ((rand d mod 2 ^ 16) mod 45) with
      | None => None
      | Some l =>
        match divisions t nColors rand (d + 1) (nColorIdx + k) with
        | None => None
        | Some r => Some (map (fun a => getBGRFromHSL (inject_Z a) 1 (currLight d)) l ++ r)
        end
      end
    else Some []
  end.
(* vColors before the shuffle; the vector is created with black *)
Definition palette (nColors : Z) (rand : Z -> Z) : option (list (Z * Z * Z)) :=
  match divisions (Z.to_nat (Z.log2_up nColors)) nColors rand 0 0 with
  | None => None
  | Some l => Some (l ++ repeat (0, 0, 0) (Z.to_nat nColors - length l))
  end.

Definition color := (Z * Z * Z)%type.
Inductive result :=
| Refused    (* lvAssert, line 1327 *)
| Endless    (* the loop of line 1344 *)
| Painted (image : list color) (colors : option (list (Z * color))). (* None: *pmColorMap is left as it was *)
(* mColorMap[v]: a missing entry is created with black *)
Fixpoint lookup (t : list (Z * color)) (v : Z) : color :=
  match t with [] => (0, 0, 0) | (k, c) :: r => if k =? v then c else lookup r v end.
Definition getUniqueColorMap (m : list Z) (rand : Z -> Z) (shuffle : list color -> list color) : result :=
  match m with
  | [] => Painted [] None
  | _ =>
    let u := unique m in
    let n := Z.of_nat (length u) in
    if n <=? 1 then Painted (repeat (255, 255, 255) (length m)) None
    else if 720 <=? n then Refused
    else
      match palette n rand with
      | None => Endless
      | Some v => let t := combine u (shuffle v) in Painted (map (lookup t) m) (Some t)
      end
  end.
