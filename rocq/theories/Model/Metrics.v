(** Evaluation counters and metrics, modules/datasets/src/metrics.cpp and modules/datasets/include/litiv/datasets/metrics.hpp.
    Doubles are replaced by exact rationals (a square root by its argument); 64-bit counters wrap. *)
From Coq Require Import ZArith QArith Qabs List Bool.
From Verif Require Import Lib.Grid.
Import ListNotations.
Open Scope Z_scope.

Definition wrap (v : Z) : Z := v mod 18446744073709551616.
(** metrics.hpp:32-38 *)
Record counters := Cnt { nTP : Z; nTN : Z; nFP : Z; nFN : Z; nSE : Z; nDC : Z }.
(** line 67 *)
Definition zero_counters : counters := Cnt 0 0 0 0 0 0.
(** lines 50-52 *)
Definition total (m : counters) (dc : bool) : Z := wrap (nTP m + nTN m + nFP m + nFN m + (if dc then nDC m else 0)).
(** lines 54-56 *)
Definition is_equal (a b : counters) : bool :=
  (nTP a =? nTP b) && (nTN a =? nTN b) && (nFP a =? nFP b) && (nFN a =? nFN b) && (nSE a =? nSE b) && (nDC a =? nDC b).
(** lines 58-60 *)
Definition accumulate (a c : counters) : counters :=
  Cnt (wrap (nTP a + nTP c)) (wrap (nTN a + nTN c)) (wrap (nFP a + nFP c)) (wrap (nFN a + nFN c)) (wrap (nSE a + nSE c)) (wrap (nDC a + nDC c)).

(** an 8-bit matrix: element (i,j) is at data (i*step+j) *)
Record mat := Mat { mrows : Z; mcols : Z; mstep : Z; mdata : Z -> Z }.
Definition at_ (m : mat) (i j : Z) : Z := mdata m (i * mstep m + j).
Definition continuous (m : mat) : bool := (mstep m =? mcols m) || (mrows m =? 1).
(** metrics.hpp:23-27, DATASETUTILS_{POSITIVE,NEGATIVE,OUTOFSCOPE,UNKNOWN,SHADOW}_VAL *)
Definition POS : Z := 255. Definition NEG : Z := 0. Definition OUT : Z := 85. Definition UNK : Z := 170. Definition SHD : Z := 50.
(** metrics.cpp:38-62 on one pixel; [roi] None is an empty matrix *)
Definition scored (gt : Z) (roi : option Z) : bool :=
  negb (gt =? OUT) && negb (gt =? UNK) && (match roi with None => true | Some r => negb (r =? NEG) end).
Definition count_pixel (c : counters) (input gt : Z) (roi : option Z) : counters :=
  if scored gt roi then
    let c := if input =? POS
             then if gt =? POS then Cnt (wrap (nTP c + 1)) (nTN c) (nFP c) (nFN c) (nSE c) (nDC c)
                               else Cnt (nTP c) (nTN c) (wrap (nFP c + 1)) (nFN c) (nSE c) (nDC c)
             else if gt =? POS then Cnt (nTP c) (nTN c) (nFP c) (wrap (nFN c + 1)) (nSE c) (nDC c)
                               else Cnt (nTP c) (wrap (nTN c + 1)) (nFP c) (nFN c) (nSE c) (nDC c) in
    if gt =? SHD then if input =? POS then Cnt (nTP c) (nTN c) (nFP c) (nFN c) (wrap (nSE c + 1)) (nDC c) else c else c
  else Cnt (nTP c) (nTN c) (nFP c) (nFN c) (nSE c) (wrap (nDC c + 1)).
(** metrics.cpp:21-64; [None] is a failed assertion. The three matrices are read with the row step of the classification (lines 31-36); line 24 tests
    the continuity of the ground truth where it should test that of the ROI *)
Definition accumulate_mats (c : counters) (cl : mat) (gt roi : option mat) : option counters :=
  let ok := (0 <? mrows cl) && (0 <? mcols cl) && continuous cl &&
            (match gt with None => true | Some g => continuous g && (mrows g =? mrows cl) && (mcols g =? mcols cl) end) &&
            (match roi with None => true | Some r => (match gt with None => true | Some g => continuous g end) && (mrows r =? mrows cl) && (mcols r =? mcols cl) end) in
  if negb ok then None else
  match gt with
  | None => Some (Cnt (nTP c) (nTN c) (nFP c) (nFN c) (nSE c) (wrap (nDC c + mrows cl * mcols cl)))
  | Some g => Some (fold_left (fun c p => let a := fst p * mstep cl + snd p in
                                 count_pixel c (mdata cl a) (mdata g a) (match roi with None => None | Some r => Some (mdata r a) end))
                      (grid 0 (mrows cl) 0 (mcols cl)) c)
  end.
(** metrics.cpp:66-115, getColoredMask on one pixel (blue, green, red) *)
Definition colour (input gt : Z) (roi : option Z) : Z * Z * Z :=
  if scored gt roi then
    if input =? POS then
      if gt =? POS then (0, 255, 0) else if gt =? NEG then (0, 0, 255) else if gt =? SHD then (0, 127, 255) else (85, 85, 85)
    else if gt =? POS then (127, 0, 255) else (0, 0, 0)
  else match roi with
       | Some r => if r =? NEG then (127, 127, 127) else (input, input, input)
       | None => (input, input, input)
       end.

(** ** metrics.hpp:213-257 *)
Definition ratio (a b : Z) : Q := if 0 <? b then inject_Z a / inject_Z b else 0%Q.
Definition CalcRecall (m : counters) : Q := ratio (nTP m) (wrap (nTP m + nFN m)).
Definition CalcPrecision (m : counters) : Q := ratio (nTP m) (wrap (nTP m + nFP m)).
Definition CalcSpecificity (m : counters) : Q := ratio (nTN m) (wrap (nTN m + nFP m)).
Definition CalcFPR (m : counters) : Q := ratio (nFP m) (wrap (nFP m + nTN m)).
Definition CalcFNR (m : counters) : Q := ratio (nFN m) (wrap (nTP m + nFN m)).
Definition CalcPBC (m : counters) : Q := if 0 <? total m false then (100 * inject_Z (wrap (nFN m + nFP m)) / inject_Z (total m false))%Q else 0%Q.
Definition CalcFMeasure (r p : Q) : Q := if Qlt_le_dec 0 (r + p) then (2 * (r * p) / (r + p))%Q else 0%Q.
Definition FMeasure (m : counters) : Q := CalcFMeasure (CalcRecall m) (CalcPrecision m).
(** line 253: numerator and square of the denominator; nFP*nFN is a 64-bit product; [None] when the guard gives 0 *)
Definition CalcMCC (m : counters) : option (Z * Z) :=
  if (0 <? wrap (nTP m + nFP m)) && (0 <? wrap (nTP m + nFN m)) && (0 <? wrap (nTN m + nFP m)) && (0 <? wrap (nTN m + nFN m))
  then Some (nTP m * nTN m - wrap (nFP m * nFN m), (nTP m + nFP m) * wrap (nTP m + nFN m) * wrap (nTN m + nFP m) * wrap (nTN m + nFN m))
  else None.

(** ** Averages over work batches *)
(** metrics.hpp:203-211 *)
Record metrics := Met { dRecall : Q; dSpecificity : Q; dFPR : Q; dFNR : Q; dPBC : Q; dPrecision : Q; dFMeasure : Q; dMCC : Q }.
(** a calculator has metrics and a weight (metrics.hpp:313-317) *)
Definition calc := (metrics * Z)%type.
(** metrics.cpp:329-342 *)
Definition merge (a b : calc) : calc :=
  let '(m, w) := a in let '(m2, w2) := b in
  let t := wrap (w + w2) in
  let av x y := ((y * inject_Z w2 + x * inject_Z w) / inject_Z t)%Q in
  (Met (av (dRecall m) (dRecall m2)) (av (dSpecificity m) (dSpecificity m2)) (av (dFPR m) (dFPR m2)) (av (dFNR m) (dFNR m2)) (av (dPBC m) (dPBC m2))
       (av (dPrecision m) (dPrecision m2)) (av (dFMeasure m) (dFMeasure m2)) (av (dMCC m) (dMCC m2)), t).
(** work batches with their output count and counters, and groups (utils.cpp:184-253) *)
Inductive batch := Work (outputs : Z) (c : counters) | Group (bare : bool) (l : list batch).
(** utils.cpp:208-210 *)
Fixpoint outputs (b : batch) : Z := match b with Work n _ => n | Group _ l => fold_right (fun x acc => wrap (outputs x + acc)) 0 l end.
(** metrics.hpp:413-419 *)
Fixpoint metrics_base (b : batch) : counters :=
  match b with Work _ c => c | Group _ l => fold_left (fun acc x => accumulate acc (metrics_base x)) l zero_counters end.
(** metrics.hpp:421-436; [of] computes the metrics of counters; [None] is the failed assertion at line 426 *)
Section Retrieve.
Variable of : counters -> metrics.
Definition merge_opt (a b : option calc) : option calc := match a, b with Some x, Some y => Some (merge x y) | _, _ => None end.
Fixpoint get_metrics (b : batch) : option calc :=
  match b with
  | Work _ c => Some (of c, 1)
  | Group true _ => Some (of (metrics_base b), 1)
  | Group false l =>
      (fix first (l : list batch) : option calc :=
         match l with
         | [] => None
         | x :: r => if outputs x =? 0 then first r else
             (fix rest (acc : option calc) (l : list batch) : option calc :=
                match l with
                | [] => acc
                | y :: r => rest (if 0 <? outputs y then merge_opt acc (get_metrics y) else acc) r
                end) (get_metrics x) r
         end) l
  end.
(** without averaging *)
Definition get_metrics_total (b : batch) : calc := (of (metrics_base b), 1).
End Retrieve.

(** ** Stereo disparity errors *)
(** a float without infinities: None is NaN *)
Definition flt := option Q.
(** element types of the maps: unsigned or signed integers of some width, or float *)
Inductive etype := U8 | S8 | U16 | S16 | S32 | F32.
(** metrics.cpp:142-155; the largest float is (2-2^-23)*2^127 *)
Definition max_of (t : etype) : Q :=
  match t with U8 => 255 # 1 | S8 => 127 # 1 | U16 => 65535 # 1 | S16 => 32767 # 1 | S32 => 2147483647 # 1
             | F32 => inject_Z ((2 ^ 24 - 1) * 2 ^ 104) end.
Definition valid_gt (t : etype) (v : flt) : bool :=
  match v with
  | None => false
  | Some q => negb (Qeq_bool q (max_of t)) && (match t with U8 | U16 => true | _ => Qle_bool 0 q end)
  end.
Definition abs_diff (a b : flt) : flt := match a, b with Some x, Some y => Some (Qabs.Qabs (x - y)) | _, _ => None end.
Record disp_errors := DE { vErrors : list flt; nDCs : Z }.
Definition add_pixel (t : etype) (e : disp_errors) (input gt : flt) (roi : option Z) : disp_errors :=
  if valid_gt t gt && (match roi with None => true | Some r => negb (r =? 0) end)
  then DE (vErrors e ++ [abs_diff input gt]) (nDCs e) else DE (vErrors e) (wrap (nDCs e + 1)).
(** metrics.cpp:156-168 over the pixels in order; the conversion of integers to float is taken as exact *)
Definition add_map (t : etype) (e : disp_errors) (px : list (flt * flt * option Z)) : disp_errors :=
  fold_left (fun e p => let '(i, g, r) := p in add_pixel t e i g r) px e.
(** metrics.hpp:82-84 *)
Definition merge_errors (a b : disp_errors) : disp_errors := DE (vErrors a ++ vErrors b) (wrap (nDCs a + nDCs b)).
(** metrics.hpp:269-277: NaN>margin is false *)
Definition above (margin : Q) (v : flt) : bool := match v with None => false | Some q => negb (Qle_bool q margin) end.
Definition CalcPercentBad (l : list flt) (margin : Q) : Q :=
  match l with [] => 0%Q | _ => (inject_Z (count (above margin) l) / inject_Z (Z.of_nat (length l)) * 100)%Q end.
(** metrics.hpp:279-283 and 285-291; the square root of the second is not taken *)
Definition fadd (a b : flt) : flt := match a, b with Some x, Some y => Some (x + y)%Q | _, _ => None end.
Definition CalcAverage (l : list flt) : flt :=
  match l with [] => Some 0%Q | _ => match fold_left fadd l (Some 0%Q) with Some s => Some (s / inject_Z (Z.of_nat (length l)))%Q | None => None end end.
Definition CalcRMS2 (l : list flt) : flt :=
  match l with [] => Some 0%Q | _ => match fold_left (fun s v => fadd s (match v with Some q => Some (q * q)%Q | None => None end)) l (Some 0%Q) with
                                   | Some s => Some (s / inject_Z (Z.of_nat (length l)))%Q | None => None end end.
