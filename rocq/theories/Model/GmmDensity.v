(* Densities of Gaussian mixtures, modules/utils/include/litiv/utils/math.hpp lines 1230-1295, over the real numbers. *)
From Coq Require Import ZArith QArith Reals Qreals List.
From Verif Require Import Model.Gmm.
Import ListNotations.
Open Scope R_scope.

(* line 1333 *)
Definition sigmaFactor (n : nat) : R := (2 * PI) ^ n.
(* line 1359 *)
Definition factor (n : nat) (c : comp) : R := 1 / sqrt (sigmaFactor n * Q2R (determ c)).
(* lines 1247-1274 *)
Definition density (n : nat) (c : comp) (s : vec) : R :=
  if Qlt_le_dec 0 (coeff c) then factor n c * exp (- (1 / 2) * Q2R (quad n (inv c) (fun i => (s i - mean c i)%Q))) else 0.
(* lines 1232-1239 *)
Definition mixture (comps n : nat) (g : gmm) (s : vec) : R :=
  fold_left (fun t c => t + Q2R (coeff (g c)) * density n (g c) s) (seq 0 (comps - 1)) (Q2R (coeff (g (comps - 1)%nat)) * density n (g (comps - 1)%nat) s).
(* lines 1284-1295 *)
Definition getBestComponent (comps n : nat) (g : gmm) (s : vec) : nat :=
  fst (fold_left (fun best c => if Rlt_dec (snd best) (density n (g c) s) then (c, density n (g c) s) else best) (seq 0 (comps - 1))
    ((comps - 1)%nat, density n (g (comps - 1)%nat) s)).
