(* Measures of a tracker: sets of pixels, and means over the frames. *)
From Coq Require Import ZArith Reals Bool List.
From Verif Require Import Model.Ptz Model.PtzCamera Model.PtzEval.
Import ListNotations.
Open Scope R_scope.

(* the pixels of a box *)
Definition covers (r : rect) (p : Z * Z) : Prop := (rx r <= fst p < rx r + rw r)%Z /\ (ry r <= snd p < ry r + rh r)%Z.
Definition has_size {A} (P : A -> Prop) (n : nat) : Prop := exists l, NoDup l /\ (forall p, In p l <-> P p) /\ length l = n.
Definition total_of (l : list R) : R := fold_right Rplus 0 l.

(* what was compared in each frame: the target's point and box, and the tracker's box *)
Record compared := { px : Z; py : Z; truth : rect; given : rect }.
Definition compared_now (s : test) (k : call) : list compared :=
  match k with
  | Next _ _ _ _ _ _ => []
  | Result a b f h v bw bh r =>
    let c := lens (cam s) in
    let t := match bounding_box {| width := a; height := b; fov := f; hori := h; verti := v |} c bw bh with Box x y w h => {| rx := x; ry := y; rw := w; rh := h |} | _ => gt_box s end in
    match hv_to_xy c h v with At x y => [{| px := x; py := y; truth := t; given := r |}] | _ => [{| px := int_max; py := int_max; truth := t; given := r |}] end
  end.
Fixpoint history (s : test) (ks : list call) : list compared :=
  match ks with [] => [] | k :: ks => compared_now s k ++ match run1 s k with Some s' => history s' ks | None => [] end end.
