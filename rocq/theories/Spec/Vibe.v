(* What a sample-based background model should hold and decide. *)
From Coq Require Import ZArith List Bool.
From Verif Require Import Lib.Grid Model.Vibe.
Import ListNotations.
Open Scope Z_scope.

Definition in_image (size p : Z * Z) : Prop := 0 <= fst p < fst size /\ 0 <= snd p < snd size.
Definition within (d : Z) (p q : Z * Z) : Prop := Z.abs (fst p - fst q) <= d /\ Z.abs (snd p - snd q) <= d.

(* values seen around a point: in the initial image up to 3 pixels away, in later frames up to 1 pixel away *)
Definition seen (size : Z * Z) (first : Z * Z -> list Z) (later : list (Z * Z -> list Z)) (p : Z * Z) (v : list Z) : Prop :=
  (exists q, in_image size q /\ within 3 p q /\ v = first q) \/
  (exists f q, In f later /\ in_image size q /\ within 1 p q /\ v = f q).

(* bytes *)
Definition byte_pixel (n : nat) (v : list Z) : Prop := length v = n /\ Forall (fun x => 0 <= x <= 255) v.
Definition channels (k : kind) : nat := match k with Gray => 1 | Colour => 3 end.

(* the distances meant: absolute difference, euclidean distance *)
Fixpoint squares (v b : list Z) : Z :=
  match v, b with x :: v', y :: b' => (x - y) * (x - y) + squares v' b' | _, _ => 0 end.
Definition similar (c : config) (v b : list Z) : Prop :=
  match kind_of c with
  | Gray => Z.abs (hd 0 v - hd 0 b) < threshold c
  | Colour => squares v b < (threshold c * 3) * (threshold c * 3)
  end.
