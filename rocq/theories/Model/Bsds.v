(* Evaluation of edge maps on BSDS500 (modules/datasets/src/impl/BSDS500.cpp, build without USE_BSDS500_BENCHMARK).
   Doubles are exact rationals; counters are unbounded except where they are summed over images. *)
From Coq Require Import ZArith QArith List Bool.
From Verif Require Import Lib.Grid Model.Interp Model.Vectors Model.Metrics.
Import ListNotations.
Open Scope Z_scope.

(* linspace<uchar>(0,UCHAR_MAX,n,false), BSDS500.hpp:159 and math.hpp:949-963, truncated to uchar *)
Definition thresholds (n : nat) : list Z := map (fun i => 255 * Z.of_nat i / Z.of_nat n) (seq 1 n).

(* ---- matching of one thinned edge mask with the ground truth masks, BSDS500.cpp:370-402 ---- *)
Definition mask := Z -> Z -> bool.
Record counters := Cnt { indiv_tp : Z; indiv_tpfn : Z; total_tp : Z; total_tpfp : Z }.

(* DATASETS_BSDS500_EVAL_IMAGE_DIAG_RATIO_DIST squared times the squared diagonal: dMaxDistSqr, BSDS500.cpp:77-78.
   (75/10000)^2 = 9/160000; a squared integer distance d is within it iff 160000*d <= 9*(w*w+h*h) *)
Definition near (h w d2 : Z) : bool := 160000 * d2 <=? 9 * (w * w + h * h).
(* nMaxDist = ceil(dMaxDist), BSDS500.cpp:79: the least n with n*n >= dMaxDistSqr *)
Definition reach (h w : Z) : Z := Z.sqrt_up ((9 * (w * w + h * h) + 159999) / 160000).

(* the double loop over u and v, stopped by the first match, BSDS500.cpp:381-399 *)
Definition offsets (n : Z) : list (Z * Z) := grid (- n) (2 * n + 1) (- n) (2 * n + 1).
Definition hit (h w : Z) (segm : mask) (i j : Z) (o : Z * Z) : bool :=
  let '(u, v) := o in
  (0 <=? i + u) && (i + u <? h) && (0 <=? j + v) && (j + v <? w) && near h w (u * u + v * v) && segm (i + u) (j + v).
Definition find_match (h w : Z) (segm : mask) (p : Z * Z) : option (Z * Z) :=
  match find (hit h w segm (fst p) (snd p)) (offsets (reach h w)) with
  | Some (u, v) => Some (fst p + u, snd p + v) | None => None end.

(* one ground truth mask: its positive pixels, each with the match found *)
Definition matches (h w : Z) (segm gt : mask) : list (option (Z * Z)) :=
  map (find_match h w segm) (filter (fun p => gt (fst p) (snd p)) (grid 0 h 0 w)).
Definition is_some {A} (o : option A) : bool := match o with Some _ => true | None => false end.
Definition marked (ms : list (option (Z * Z))) (p : Z * Z) : bool :=
  existsb (fun o => match o with Some q => (fst q =? fst p) && (snd q =? snd p) | None => false end) ms.

(* BSDS500.cpp:372-415: nIndivTP, nGTPosCount, countNonZero of the accumulator and of the mask *)
Definition evaluate (h w : Z) (gts : list mask) (segm : mask) : counters :=
  let ms := flat_map (matches h w segm) gts in
  Cnt (count is_some ms) (Z.of_nat (length ms)) (count (marked ms) (grid 0 h 0 w))
      (count (fun p => segm (fst p) (snd p)) (grid 0 h 0 w)).

(* ---- the sweep over the thresholds, BSDS500.cpp:83-428 ---- *)
Section Sweep.
Context {C : Type} (img : list Z) (eval : list bool -> C).

(* cv::compare(oClassif,t,CMP_GE), BSDS500.cpp:89 *)
Definition edges (t : Z) : list bool := map (fun v => t <=? v) img.
(* BSDS500.cpp:416-417: the list of unique values from nNextEvalUniqueValIdx on *)
Fixpoint advance (u : list Z) (t : Z) : list Z :=
  match u with
  | x :: r => match r with [] => u | _ => if x <=? t then advance r t else u end
  | [] => []
  end.
(* BSDS500.cpp:418-423: number of following bins which copy the counts *)
Fixpoint copied (ts : list Z) (bound : Z) : nat :=
  match ts with t :: r => if t <=? bound then S (copied r bound) else 0%nat | [] => 0%nat end.
Fixpoint sweep (fuel : nat) (ts u : list Z) : list C :=
  match fuel, ts with
  | S f, t :: r =>
      let c := eval (edges t) in
      let u2 := advance u t in
      let k := copied r (hd 0 u2) in
      c :: repeat c k ++ sweep f (skipn k r) u2
  | _, _ => []
  end.
Definition accumulate (ts : list Z) : list C := sweep (length ts) ts (unique img).
End Sweep.

(* ---- scores, BSDS500.cpp:495-597 ---- *)
Open Scope Q_scope.
Record score := Score { threshold : Q; recall : Q; precision : Q; fmeasure : Q }.
Definition score_of (t : Z) (c : counters) : score :=
  let r := ratio (indiv_tp c) (indiv_tpfn c) in
  let p := ratio (total_tp c) (total_tpfp c) in
  Score (inject_Z t / 255) r p (CalcFMeasure r p).

(* FindMaxFMeasure, BSDS500.cpp:495-517: the interpolation points between two consecutive scores *)
Definition weights : list Q := map (fun i => inject_Z i / 100) (zrange 0 101).
Definition blend (a b : score) (k : Q) : score :=
  let mix x y := (1 - k) * x + k * y in
  let r := mix (recall a) (recall b) in
  let p := mix (precision a) (precision b) in
  Score (mix (threshold a) (threshold b)) r p (CalcFMeasure r p).
Definition better (best s : score) : score := if Qltb (fmeasure best) (fmeasure s) then s else best.
Fixpoint find_max (best prev : score) (l : list score) : score :=
  match l with
  | [] => best
  | s :: r => find_max (fold_left (fun b k => better b (blend prev s k)) weights best) s r
  end.
Definition FindMaxFMeasure (l : list score) : option score :=
  match l with [] => None | s :: r => Some (find_max s s r) end.

(* BSDS500.cpp:547-550: counters summed over the images, as uint64_t *)
Definition add (a b : counters) : counters :=
  Cnt (wrap (indiv_tp a + indiv_tp b)) (wrap (indiv_tpfn a + indiv_tpfn b)) (wrap (total_tp a + total_tp b)) (wrap (total_tpfp a + total_tpfp b)).
Definition cumulate (l : list counters) : counters := fold_left add l (Cnt 0 0 0 0).

(* the unique recalls with a precision each, BSDS500.cpp:575-586 (std::sort and std::unique by contract: any
   representative of equal recalls is as good; here the one met first is kept) *)
Fixpoint by_recall (s : score) (l : list score) : list score :=
  match l with
  | [] => [s]
  | x :: r => if Qltb (recall s) (recall x) then s :: l else if Qltb (recall x) (recall s) then x :: by_recall s r else l
  end.
Definition unique_recalls (l : list score) : list score := fold_left (fun a s => by_recall s a) l [].
(* the sum over n <= size, BSDS500.cpp:592-594 *)
Fixpoint area_sum (vals : list Q) (n : nat) (acc : Q) : outcome Q :=
  match n with
  | O => Ok acc
  | S m => match area_sum vals m acc with
           | Ok a => match nth_error vals m with Some v => Ok (a + v * (1 # 100)) | None => UB end
           | r => r end
  end.
(* BSDS500.cpp:574-595: Throw is the domain_error of interp1, UB a read past the end *)
Definition area (l : list score) : outcome Q :=
  let u := unique_recalls l in
  if (1 <? length u)%nat then
    match interp1 (map recall u) (map precision u) weights with
    | Ok [] => Ok 0
    | Ok vals => area_sum vals (S (length vals)) 0
    | Throw => Throw
    | UB => UB
    end
  else Ok 0.
