(* The schedule of moves of the inference of SegmMatcher: modules/imgproc/src/SegmMatcher.cpp lines 3156-3462, as configured (lines 32-43).
   What the moves do is a parameter: E is all of the state but the counters of the loop. *)
From Coq Require Import ZArith List Bool.
Import ListNotations.
Open Scope Z_scope.

(* lines 3158-3160: the functor given to std::sort; dc is m_nDontCareLabelIdx, cnt the histogram of the first labeling *)
Definition before (dc : Z) (cnt : Z -> Z) (a b : Z) : bool := if a =? dc then true else if b =? dc then false else cnt b <? cnt a.

(* one stereo move: its label, whether a label changed, the moves of the resegmentation behind it with the labels each changed, and whether the stereo model was updated *)
Record block := { label : Z; changed : bool; moves : list (Z * Z); updated : bool }.
Inductive stop := Energy | Near | Unchanged | Moves.

Section Loop.
  Context {E L : Type}.
  Context (n : Z).                            (* m_nStereoLabels, the size of m_vStereoLabelOrdering *)
  Context (ord : Z -> Z).                     (* m_vStereoLabelOrdering *)
  Context (maxr : nat).                       (* m_nMaxResegmMoveCount *)
  Context (cont : bool).                      (* SEGMMATCH_CONFIG_USE_CONT_RESEGM_UPDT, true at line 43 *)
  Context (stereo : Z -> E -> E * bool).      (* calcStereoMoveCosts and the move to a label; whether nChangedStereoLabels>0 *)
  Context (energy : E -> Z).                  (* m_pStereoInf->value() *)
  Context (seg : E -> L).                     (* m_oSuperStackedResegmLabeling *)
  Context (project : E -> E).                 (* resetStereoLabelingByProjection of the other cameras, lines 3305-3314 *)
  Context (refresh : bool -> E -> E).         (* calcShapeDistFeatures and updateResegmModel(bInitResegmIter), lines 3327-3332 *)
  Context (resegm : Z -> E -> E * Z).         (* the resegmentation move to a label; what it adds to aanChangedResegmLabels *)
  Context (update : E -> E).                  (* lines 3438-3450 *)
  Context (near4 near3 : L -> L -> bool).     (* less than 1e-4, 1e-3 of the labels differ: lines 3429-3431 and 3454-3456 *)

  (* lines 3322-3436; more is m_nMaxResegmMoveCount-k with k the moves done, i0 is nInitResegmMoveIter.
     The result is nResegmMoveIter (the failing test of the loop increments it as well), the state, nTotChangedResegmLabels and the moves. *)
  Fixpoint pass (more : nat) (i0 k : Z) (e : E) (consec c tot : Z) (pre : L) : Z * E * Z * list (Z * Z) :=
    match more with
    | O => (i0 + k + 1, e, tot, [])
    | S more =>
      if negb (consec <? 2) then (i0 + k + 1, e, tot, []) else
      let k := k + 1 in
      let new := k mod 2 =? 1 in
      let a := if (i0 + k) mod 2 =? 0 then 1 else 0 in
      let e1 := if new || cont then refresh (k =? 1) e else e in
      let c := if new || cont then 0 else c in
      let pre := if new then seg e1 else pre in
      let '(e2, d) := resegm a e1 in
      let c := c + d in
      if new then let '(i, e', t, l) := pass more i0 k e2 consec c tot pre in (i, e', t, (a, d) :: l) else
      let tot := tot + c in
      if near4 pre (seg e2) then (i0 + k, e2, tot, [(a, d)]) else
      let '(i, e', t, l) := pass more i0 k e2 (if 0 <? c then 0 else consec + 2) c tot pre in (i, e', t, (a, d) :: l)
    end.

  (* lines 3170-3462; more is m_nMaxStereoMoveCount-t with t = nStereoMoveIter, idx is nStereoLabelOrderingIdx, just is bJustUpdatedSegm.
     Energy is the assertion of line 3300, the others are the ways out of the loop. *)
  Fixpoint infer (more : nat) (t idx consec last : Z) (just : bool) (i0 : Z) (e : E) (pre : L) : stop * E * list block :=
    match more with
    | O => (Moves, e, [])
    | S more =>
      if negb (consec <? n) then (Unchanged, e, []) else
      let a := ord idx in
      let '(e1, ch) := stereo a e in
      let idx := (idx + 1) mod n in
      let consec := if ch then 0 else consec + 1 in
      let cur := energy e1 in
      if negb just && (last <? cur) then (Energy, e1, [{| label := a; changed := ch; moves := []; updated := false |}]) else
      if t mod n =? 0 then
        let '(i, e2, tot, l) := pass maxr i0 0 (project e1) 0 0 0 (seg e1) in
        let u := 0 <? tot in
        let e3 := if u then update e2 else e2 in
        let b := {| label := a; changed := ch; moves := l; updated := u |} in
        if near3 pre (seg e3) then (Near, e3, [b]) else
        let '(s, e', w) := infer more (t + 1) idx (if u then 0 else consec) cur u i e3 (seg e3) in (s, e', b :: w)
      else
        let '(s, e', w) := infer more (t + 1) idx consec cur false i0 e1 pre in (s, e', {| label := a; changed := ch; moves := []; updated := false |} :: w)
    end.
  Definition run (max : nat) (e : E) : stop * E * list block := infer max 0 0 0 (energy e) false 0 e (seg e).
End Loop.
