(* Gaussian mixture models: parameter estimation of lv::GMM, modules/utils/include/litiv/utils/math.hpp lines 1147-1364, and its use on images,
   modules/imgproc/include/litiv/imgproc.hpp lines 211-309. Exact rationals; the densities are in Model/GmmDensity.v. The dimension n is 1, 2 or 3, for which
   determinant and inverse have closed forms (math.hpp:1056-1061, 1086-1117). Counts are unbounded. *)
From Coq Require Import ZArith QArith Qabs List Bool.
Import ListNotations.
Open Scope Q_scope.

Definition vec := nat -> Q.
Definition mat := nat -> nat -> Q.

(* determinant<N>, math.hpp:1056-1061, on row-major storage of width N *)
Definition det (n : nat) (m : mat) : Q :=
  match n with
  | 1%nat => m 0%nat 0%nat
  | 2%nat => m 0%nat 0%nat * m 1%nat 1%nat - m 0%nat 1%nat * m 1%nat 0%nat
  | 3%nat =>
    m 0%nat 0%nat * (m 1%nat 1%nat * m 2%nat 2%nat - m 1%nat 2%nat * m 2%nat 1%nat) -
    m 0%nat 1%nat * (m 1%nat 0%nat * m 2%nat 2%nat - m 1%nat 2%nat * m 2%nat 0%nat) +
    m 0%nat 2%nat * (m 1%nat 0%nat * m 2%nat 1%nat - m 1%nat 1%nat * m 2%nat 0%nat)
  | _ => 0
  end.
(* invert<N>, math.hpp:1086-1117; None: returned false *)
Definition invert (n : nat) (m : mat) : option mat :=
  let d := det n m in
  if Qeq_bool d 0 then None
  else Some (fun i j =>
    match n with
    | 1%nat => 1 / m 0%nat 0%nat
    | 2%nat =>
      match i, j with
      | 0%nat, 0%nat => m 1%nat 1%nat * (1 / d)
      | 0%nat, 1%nat => m 0%nat 1%nat * - (1 / d)
      | 1%nat, 0%nat => m 1%nat 0%nat * - (1 / d)
      | 1%nat, 1%nat => m 0%nat 0%nat * (1 / d)
      | _, _ => 0
      end
    | _ =>
      match i, j with
      | 0%nat, 0%nat => (m 1%nat 1%nat * m 2%nat 2%nat - m 1%nat 2%nat * m 2%nat 1%nat) * (1 / d)
      | 0%nat, 1%nat => (m 0%nat 2%nat * m 2%nat 1%nat - m 0%nat 1%nat * m 2%nat 2%nat) * (1 / d)
      | 0%nat, 2%nat => (m 0%nat 1%nat * m 1%nat 2%nat - m 0%nat 2%nat * m 1%nat 1%nat) * (1 / d)
      | 1%nat, 0%nat => (m 1%nat 2%nat * m 2%nat 0%nat - m 1%nat 0%nat * m 2%nat 2%nat) * (1 / d)
      | 1%nat, 1%nat => (m 0%nat 0%nat * m 2%nat 2%nat - m 0%nat 2%nat * m 2%nat 0%nat) * (1 / d)
      | 1%nat, 2%nat => (m 0%nat 2%nat * m 1%nat 0%nat - m 0%nat 0%nat * m 1%nat 2%nat) * (1 / d)
      | 2%nat, 0%nat => (m 1%nat 0%nat * m 2%nat 1%nat - m 1%nat 1%nat * m 2%nat 0%nat) * (1 / d)
      | 2%nat, 1%nat => (m 0%nat 1%nat * m 2%nat 0%nat - m 0%nat 0%nat * m 2%nat 1%nat) * (1 / d)
      | 2%nat, 2%nat => (m 0%nat 0%nat * m 1%nat 1%nat - m 0%nat 1%nat * m 1%nat 0%nat) * (1 / d)
      | _, _ => 0
      end
    end).

(* the members used while learning, lines 1207-1210 *)
Record learner := Learner { sums : nat -> vec; prods : nat -> mat; counts : nat -> Z; tot : Z }.
(* lines 1297-1304 *)
Definition initLearning : learner := Learner (fun _ _ => 0) (fun _ _ _ => 0) (fun _ => 0%Z) 0%Z.
(* lines 1314-1327 *)
Definition set_at {A} (f : nat -> A) (c : nat) (v : A) : nat -> A := fun k => if Nat.eqb k c then v else f k.
Definition addSample (c : nat) (s : vec) (l : learner) : learner :=
  Learner (set_at (sums l) c (fun i => sums l c i + s i)) (set_at (prods l) c (fun i j => prods l c i j + s i * s j))
    (set_at (counts l) c (counts l c + 1)%Z) (tot l + 1)%Z.

(* one component of the model, lines 1200-1206 *)
Record comp := Comp { coeff : Q; mean : vec; cov : mat; inv : mat; determ : Q }.
(* lines 1340-1342 and 1343-1348 *)
Definition sample_mean (l : learner) (c : nat) : vec := fun i => sums l c i / inject_Z (counts l c).
Definition sample_cov (l : learner) (c : nat) : mat := fun i j => prods l c i j / inject_Z (counts l c) - sample_mean l c i * sample_mean l c j.
(* lines 1349-1357: the covariance and its determinant, after white noise was added if it is nearly singular *)
Definition add_noise (m : mat) : mat := fun i j => if Nat.eqb i j then m i j + (1 # 100) else m i j.
Definition regularize (n : nat) (m : mat) : mat * Q :=
  if Qle_bool (1 # 1000000) (Qabs (det n m)) then (m, det n m) else (add_noise m, det n (add_noise m)).
(* lines 1331-1361, for one component; None: lvAssert of line 1358 *)
Definition estimate (n : nat) (l : learner) (old : comp) (c : nat) : option comp :=
  if (counts l c =? 0)%Z then Some (Comp 0 (mean old) (cov old) (inv old) (determ old))
  else
    let r := regularize n (sample_cov l c) in
    match invert n (fst r) with
    | None => None
    | Some x => Some (Comp (inject_Z (counts l c) / inject_Z (tot l)) (sample_mean l c) (fst r) x (snd r))
    end.
Definition gmm := nat -> comp.
Fixpoint endLearning (n : nat) (l : learner) (old : gmm) (comps : nat) : option gmm :=
  match comps with
  | O => Some old
  | S c =>
    match endLearning n l old c with
    | None => None
    | Some g => match estimate n l (old c) c with None => None | Some x => Some (set_at g c x) end
    end
  end.
(* the constructor: all zero *)
Definition emptyGmm : gmm := fun _ => Comp 0 (fun _ => 0) (fun _ _ => 0) (fun _ _ => 0) 0.

(* the exponent, lines 1257-1270: dSum1 *)
Definition total (n : nat) (f : nat -> Q) : Q := fold_left (fun t i => t + f i) (seq 0 n) 0.
Definition quad (n : nat) (x : mat) (d : vec) : Q :=
  total n (fun j => d j * fold_left (fun t i => t + d i * x i j) (seq 0 (n - 1)) (d (n - 1)%nat * x (n - 1)%nat j)).

(* ---- on images ---- *)
(* a pixel: is it in the region of interest, is it foreground, its channels *)
Record pixel := Pixel { in_roi : bool; foreground : bool; channels : vec }.
(* imgproc.hpp:226-236 *)
Definition samples_of (fg : bool) (img : list pixel) : list vec :=
  map channels (filter (fun p => in_roi p && Bool.eqb (foreground p) fg) img).
Fixpoint add_labelled (labels : list nat) (ss : list vec) (l : learner) : learner :=
  match labels, ss with c :: cs, s :: r => add_labelled cs r (addSample c s l) | _, _ => l end.
(* imgproc.hpp:239-248 (249-258 for the foreground); the labels are those cv::kmeans finds. None: cv::kmeans throws, as it does for fewer samples
   than clusters, or endLearning does *)
Definition initOne (comps n : nat) (labels : list nat) (ss : list vec) (old : gmm) : option gmm :=
  if (n <? length ss)%nat then
    if (length ss <? comps)%nat then None else endLearning n (add_labelled labels ss initLearning) old comps
  else endLearning n initLearning old comps.
Definition initGaussianMixtureParams (cb cf n : nat) (lb lf : list nat) (img : list pixel) (bg fg : gmm) : option (gmm * gmm) :=
  match initOne cb n lb (samples_of false img) bg with
  | None => None
  | Some b => match initOne cf n lf (samples_of true img) fg with None => None | Some f => Some (b, f) end
  end.
(* imgproc.hpp:262-283: the map after the call, over what it held when it was created *)
Definition assignGaussianMixtureComponents (best_bg best_fg : vec -> nat) (img : list pixel) (created : list Z) : list Z :=
  map (fun po => let p := fst po in
    if in_roi p then Z.of_nat (if foreground p then best_fg (channels p) else best_bg (channels p)) else snd po) (combine img created).
(* imgproc.hpp:285-309 *)
Definition learn_pixel (fg : bool) (comps : nat) (l : learner) (pa : pixel * Z) : learner :=
  let p := fst pa in
  if in_roi p && ((0 <=? snd pa)%Z && (snd pa <? Z.of_nat comps)%Z) && Bool.eqb (foreground p) fg then addSample (Z.to_nat (snd pa)) (channels p) l else l.
Definition learnOne (fg : bool) (comps n : nat) (img : list pixel) (labels : list Z) (old : gmm) : option gmm :=
  endLearning n (fold_left (learn_pixel fg comps) (combine img labels) initLearning) old comps.
Definition learnGaussianMixtureParams (cb cf n : nat) (img : list pixel) (labels : list Z) (bg fg : gmm) : option (gmm * gmm) :=
  match learnOne false cb n img labels bg with
  | None => None
  | Some b => match learnOne true cf n img labels fg with None => None | Some f => Some (b, f) end
  end.
