(** Evaluation of several streams at once: array and stereo accumulators and calculators of modules/datasets/src/metrics.cpp, their use by the evaluators of
    modules/datasets/include/litiv/datasets/eval.hpp and by groups of work batches (metrics.hpp:411-436). [None] is a failed assertion (an exception). *)
From Coq Require Import ZArith QArith List Bool String.
From Verif Require Import Model.Metrics.
Import ListNotations.
Open Scope Z_scope.

Fixpoint map2 {A B C} (f : A -> B -> C) (l : list A) (r : list B) : list C :=
  match l, r with x :: l, y :: r => f x y :: map2 f l r | _, _ => [] end.
Fixpoint map2_opt {A B C} (f : A -> B -> option C) (l : list A) (r : list B) : option (list C) :=
  match l, r with
  | x :: l, y :: r => match f x y, map2_opt f l r with Some z, Some t => Some (z :: t) | _, _ => None end
  | _, _ => Some []
  end.
(** std::vector::resize *)
Definition resize {A} (z : A) (n : nat) (l : list A) : list A := firstn n l ++ repeat z (n - List.length l).
Definition is_nil {A} (l : list A) : bool := match l with [] => true | _ => false end.

(** metrics.hpp:142-161 and 167-186: one value per stream (counters, or error lists), and one name per stream *)
Record acc (A : Type) := Acc { vals : list A; names : list string }.
Arguments Acc {A}. Arguments vals {A}. Arguments names {A}.
(** metrics.cpp:267-269 *)
Definition keep_name (a b : string) : string := if (a =? "")%string then b else a.

Section Accumulators.
Variable A : Type.
Variable zero : A.
Variable add : A -> A -> A.
(** metrics.cpp:282-283 and 323-324 *)
Definition new_acc (n : nat) : acc A := Acc (repeat zero n) (repeat EmptyString n).
(** metrics.cpp:255-273 and 300-318 *)
Definition acc_add (a b : acc A) : option (acc A) :=
  let v := if is_nil (vals a) then resize zero (List.length (vals b)) (vals a) else vals a in
  if negb (List.length v =? List.length (vals b))%nat then None else
  let n := if is_nil (names a) then names b else names a in
  if negb (List.length n =? List.length (names b))%nat then None else
  if negb (List.length v =? List.length n)%nat then None else
  Some (Acc (map2 add v (vals b)) (map2 keep_name n (names b))).
(** metrics.cpp:275-280: the values of all streams together; 320-321 for error lists *)
Definition acc_reduce (a : acc A) : A := fold_left add (vals a) zero.
(** eval.hpp:163-183 (and 216-236 for disparities): one packet, with [n] output streams declared by the loader; [f] counts one image *)
Definition process {X} (f : A -> X -> option A) (n : nat) (a : acc A) (xs : list X) : option (acc A) :=
  if is_nil xs || negb (List.length xs =? n)%nat then None else
  let a := if is_nil (vals a) || is_nil (names a) then Acc (resize zero (List.length xs) (vals a)) (resize EmptyString (List.length xs) (names a)) else a in
  match map2_opt f (vals a) xs with Some v => Some (Acc v (names a)) | None => None end.
(** a batch evaluated from its construction, or from resetMetrics (eval.hpp:152-155, 187): a new accumulator of size 0, then the packets in order *)
Definition process_all {X} (f : A -> X -> option A) (n : nat) (l : list (list X)) : option (acc A) :=
  fold_left (fun o xs => match o with Some a => process f n a xs | None => None end) l (Some (new_acc 0)).

(** work batches with their output count and accumulator, and groups *)
Inductive abatch := AWork (outputs : Z) (a : acc A) | AGroup (bare : bool) (l : list abatch).
(** utils.cpp:207-209 *)
Fixpoint aoutputs (b : abatch) : Z := match b with AWork n _ => n | AGroup _ l => fold_right (fun x s => wrap (aoutputs x + s)) 0 l end.
(** metrics.hpp:413-419 *)
Definition add_opt (o : option (acc A)) (p : option (acc A)) : option (acc A) :=
  match o, p with Some a, Some b => acc_add a b | _, _ => None end.
Definition total_accs (l : list (option (acc A))) : option (acc A) := fold_left add_opt l (Some (new_acc 0)).
Fixpoint abase (b : abatch) : option (acc A) := match b with AWork _ a => Some a | AGroup _ l => total_accs (map abase l) end.
End Accumulators.
Arguments AWork {A}. Arguments AGroup {A}. Arguments aoutputs {A}.

(** ** Calculators: the metrics of every stream, the names, and a weight (metrics.hpp:331-386) *)
Section Calculators.
Variable A : Type.
Variable zero : A.
Variable add : A -> A -> A.
Variable M : Type.
Variable of : A -> M.
(** the weighted mean of two sets of metrics, as the scalar calculator merges them *)
Variable mg : M * Z -> M * Z -> M * Z.
Record acalc := ACalc { mets : list M; mnames : list string; weight : Z }.
(** metrics.cpp:397-408 and 457-468: lvAssert of equal sizes *)
Definition calc_of (a : acc A) : option acalc :=
  if (List.length (vals a) =? List.length (names a))%nat then Some (ACalc (map of (vals a)) (names a) 1) else None.
(** metrics.cpp:355-371 and 416-430: stream by stream with the weights of the whole; the names of the first stay *)
Definition acalc_merge (a b : acalc) : option acalc :=
  if negb (List.length (mets a) =? List.length (mets b))%nat then None else
  Some (ACalc (map2 (fun x y => fst (mg (x, weight a) (y, weight b))) (mets a) (mets b)) (mnames a) (wrap (weight a + weight b))).
Definition acalc_merge_opt (a b : option acalc) : option acalc := match a, b with Some x, Some y => acalc_merge x y | _, _ => None end.
(** metrics.hpp:423-431 over the children with their output counts *)
Fixpoint aaverage (l : list (Z * option acalc)) : option acalc :=
  match l with
  | [] => None
  | (n, m) :: r => if n =? 0 then aaverage r else fold_left (fun o x => if 0 <? fst x then acalc_merge_opt o (snd x) else o) r m
  end.
(** metrics.hpp:421-434, getMetrics(true) *)
Fixpoint aget (b : abatch A) : option acalc :=
  match b with
  | AWork _ a => calc_of a
  | AGroup true _ => match abase A zero add b with Some a => calc_of a | None => None end
  | AGroup false l => aaverage (map (fun x => (aoutputs x, aget x)) l)
  end.
(** getMetrics(false) *)
Definition aget_total (b : abatch A) : option acalc := match abase A zero add b with Some a => calc_of a | None => None end.
End Calculators.
Arguments ACalc {M}. Arguments mets {M}. Arguments mnames {M}. Arguments weight {M}.

(** ** Reduced rows *)
(** metrics.cpp:373-396: the plain mean over the streams; a new calculator, so of weight 1 *)
Definition met_add (a b : metrics) : metrics :=
  Met (dRecall a + dRecall b) (dSpecificity a + dSpecificity b) (dFPR a + dFPR b) (dFNR a + dFNR b) (dPBC a + dPBC b)
      (dPrecision a + dPrecision b) (dFMeasure a + dFMeasure b) (dMCC a + dMCC b).
Definition met_div (a : metrics) (n : Z) : metrics :=
  let d x := (x / inject_Z n)%Q in
  Met (d (dRecall a)) (d (dSpecificity a)) (d (dFPR a)) (d (dFNR a)) (d (dPBC a)) (d (dPrecision a)) (d (dFMeasure a)) (d (dMCC a)).
Definition reduce_calc (a : acalc metrics) : option calc :=
  match mets a with [] => None | m :: r => Some (met_div (fold_left met_add r m) (Z.of_nat (List.length (mets a))), 1) end.
(** metrics.hpp:259-268; the six disparity metrics as exact numbers *)
Record smetrics := SMet { dBad05 : Q; dBad1 : Q; dBad2 : Q; dBad4 : Q; dAverageError : Q; dRMS : Q }.
(** metrics.cpp:420-427 *)
Definition smerge (a b : smetrics * Z) : smetrics * Z :=
  let '(m, w) := a in let '(m2, w2) := b in
  let t := wrap (w + w2) in
  let av x y := ((y * inject_Z w2 + x * inject_Z w) / inject_Z t)%Q in
  (SMet (av (dBad05 m) (dBad05 m2)) (av (dBad1 m) (dBad1 m2)) (av (dBad2 m) (dBad2 m2)) (av (dBad4 m) (dBad4 m2)) (av (dAverageError m) (dAverageError m2)) (av (dRMS m) (dRMS m2)), t).
(** metrics.cpp:432-450 *)
Definition smet_add (a b : smetrics) : smetrics :=
  SMet (dBad05 a + dBad05 b) (dBad1 a + dBad1 b) (dBad2 a + dBad2 b) (dBad4 a + dBad4 b) (dAverageError a + dAverageError b) (dRMS a + dRMS b).
Definition smet_div (a : smetrics) (n : Z) : smetrics :=
  let d x := (x / inject_Z n)%Q in SMet (d (dBad05 a)) (d (dBad1 a)) (d (dBad2 a)) (d (dBad4 a)) (d (dAverageError a)) (d (dRMS a)).
Definition sreduce_calc (a : acalc smetrics) : option smetrics :=
  match mets a with [] => None | m :: r => Some (smet_div (fold_left smet_add r m) (Z.of_nat (List.length (mets a)))) end.
(** eval.cpp:160-163: the label of a row is the name of the stream, or "s" and its number *)
Definition row_label (number : nat -> string) (names : list string) (s : nat) : string :=
  let n := nth s names EmptyString in if (n =? "")%string then ("s" ++ number s)%string else n.
