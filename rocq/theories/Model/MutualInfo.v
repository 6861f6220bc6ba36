(** lv::calcMutualInfo, modules/features2d/include/litiv/features2d.hpp:162-199, over the real numbers (float/double rounding not modelled). *)
From Coq Require Import ZArith List Bool Reals.
From Verif Require Import Model.Distances Model.JointHist.
Import ListNotations.
Open Scope R_scope.

Definition log2 (x : R) : R := ln x / ln 2.
(** 113,134-139 a histogram entry is the count times 1/nElemCount *)
Definition prob (n : nat) (c : Z) : R := IZR c * (1 / INR n).
(** 178-184 *)
Definition mi_term (p q r : R) : R :=
  if Rlt_dec 0 p then if Rlt_dec 0 q then if Rlt_dec 0 r then p * log2 (p / q / r) else 0 else 0 else 0.
Definition rsum (l : list R) : R := fold_right Rplus 0 l.
Definition mi_loop (n : nat) (entries : list (key * Z)) (m1 m2 : Z -> Z) : R :=
  rsum (map (fun kc => mi_term (prob n (snd kc)) (prob n (m1 (nth 0 (fst kc) 0%Z))) (prob n (m2 (nth 1 (fst kc) 0%Z)))) entries).
(** 188-194 *)
Definition entropy_loop (n : nat) (counts : list Z) : R :=
  rsum (map (fun c => let p := prob n c in if Rlt_dec 0 p then - p * log2 p else 0) counts).
(** 195-196 *)
Definition normalise (score h1 h2 : R) : R := if Rlt_dec 0 h1 then if Rlt_dec 0 h2 then score / sqrt (h1 * h2) else score else score.

(** sparse histograms (the default) *)
Definition mutual_info (bNormalize : bool) (step : Z) (s1 s2 : option (Z * Z)) (img1 img2 : list Z) : option R :=
  bind (hist_sparse step [s1; s2] [img1; img2]) (fun st =>
  match st with
  | ([m1; m2], joint) =>
      let n := length img1 in
      let score := mi_loop n joint (fun a => look m1 [a]) (fun b => look m2 [b]) in
      Some (if bNormalize then normalise score (entropy_loop n (map snd m1)) (entropy_loop n (map snd m2)) else score)
  | _ => None
  end).

(** dense histograms: all positions of the count matrix are visited, row by row; out-of-range reads do not occur and give 0 here *)
Definition dense_entries (d1 d2 : Z) (joint : list Z) : list (key * Z) :=
  map (fun o => ([Z.of_nat o / d2; Z.of_nat o mod d2]%Z, nth o joint 0%Z)) (seq 0 (length joint)).
Definition mutual_info_dense (bNormalize : bool) (step : Z) (s1 s2 : option (Z * Z)) (img1 img2 : list Z) : option R :=
  bind (hist_dense step [s1; s2] [img1; img2]) (fun st =>
  match st with
  | ([d1; d2], [m1; m2], joint) =>
      let n := length img1 in
      let score := mi_loop n (dense_entries d1 d2 joint) (fun a => nth (Z.to_nat a) m1 0%Z) (fun b => nth (Z.to_nat b) m2 0%Z) in
      Some (if bNormalize then normalise score (entropy_loop n m1) (entropy_loop n m2) else score)
  | _ => None
  end).

(** bFastNumApprox: the float histograms are incremented directly (122-123,127-128) and the count matrix keeps what it held before the call;
    the loop of 178 runs over that count matrix *)
Definition mutual_info_fast (stale : list (key * Z)) (jointHist : key -> R) (m1 m2 : Z -> R) : R :=
  rsum (map (fun kc => mi_term (jointHist (fst kc)) (m1 (nth 0 (fst kc) 0%Z)) (m2 (nth 1 (fst kc) 0%Z))) stale).
