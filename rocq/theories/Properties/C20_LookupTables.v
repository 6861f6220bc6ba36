(** C20: lookup tables, over exact arithmetic. [respects_eq f] only says f is a function of the rational value. *)
From Coq Require Import ZArith QArith Qabs.
From Verif Require Import Model.Tables Spec.Tables Proofs.Tables.
Open Scope Q_scope.

Definition id_cast := fun q : Q => q.

Theorem C20_eval_floor : forall (T : Type) (f : Q -> T) nBins nSafety a b l x,
  respects_eq f -> (2 <= nBins)%nat -> ~ a == b -> lut_init id_cast nBins nSafety a b f = Some l ->
  let B := Z.of_nat nBins in let mn := qmin a b in let mx := qmax a b in mn <= x <= mx ->
  exists k, (0 <= k <= B - 1)%Z /\ eval l x = Some (f (grid mn mx B k)) /\ grid mn mx B k <= x /\ x < grid mn mx B (k + 1).
Proof. intros T f nBins nSafety a b l x F Hb Hab E. rewrite (init_ok f nBins nSafety a b Hab) in E. injection E as <-. exact (eval_in f F nBins nSafety Hb a b Hab x). Qed.
Print Assumptions C20_eval_floor.

(** outside the domain: the end values within the safety margin, outside the buffer beyond it *)
Theorem C20_eval_outside : forall (T : Type) (f : Q -> T) nBins nSafety a b l x,
  respects_eq f -> (2 <= nBins)%nat -> ~ a == b -> lut_init id_cast nBins nSafety a b f = Some l ->
  let B := Z.of_nat nBins in let mn := qmin a b in let mx := qmax a b in
  let margin := inject_Z (Z.of_nat nSafety + 1) * gap mn mx B in x < mn \/ mx < x ->
  eval l x = if Qle_bool x (mn - margin) then None else if Qle_bool (mx + margin) x then None
             else Some (f (if Qle_bool x mn then mn else mx)).
Proof. intros T f nBins nSafety a b l x F Hb Hab E. rewrite (init_ok f nBins nSafety a b Hab) in E. injection E as <-. exact (eval_out f F nBins nSafety Hb a b Hab x). Qed.
Print Assumptions C20_eval_outside.

Theorem C20_eval_round_nearest : forall (T : Type) (f : Q -> T) nBins nSafety a b l x,
  respects_eq f -> (2 <= nBins)%nat -> ~ a == b -> lut_init id_cast nBins nSafety a b f = Some l ->
  let B := Z.of_nat nBins in let mn := qmin a b in let mx := qmax a b in mn <= x <= mx ->
  exists k, (0 <= k <= B - 1)%Z /\ eval_round l x = Some (f (grid mn mx B k)) /\ Qabs (x - grid mn mx B k) <= gap mn mx B / (2#1).
Proof. intros T f nBins nSafety a b l x F Hb Hab E. rewrite (init_ok f nBins nSafety a b Hab) in E. injection E as <-. exact (eval_round_in f F nBins nSafety Hb a b Hab x). Qed.
Print Assumptions C20_eval_round_nearest.

(** the mid-pointer lookup stays inside the buffer and is off by less than one and a half gaps *)
Theorem C20_eval_mid_in_bounds : forall (T : Type) (f : Q -> T) nBins nSafety a b l x,
  respects_eq f -> (2 <= nBins)%nat -> ~ a == b -> lut_init id_cast nBins nSafety a b f = Some l ->
  let B := Z.of_nat nBins in let mn := qmin a b in let mx := qmax a b in mn <= x <= mx ->
  exists k, (0 <= k <= B - 1)%Z /\ eval_mid l x = Some (f (grid mn mx B k)) /\ Qabs (x - grid mn mx B k) < (3#2) * gap mn mx B.
Proof. intros T f nBins nSafety a b l x F Hb Hab E. rewrite (init_ok f nBins nSafety a b Hab) in E. injection E as <-. exact (eval_mid_in f F nBins nSafety Hb a b Hab x). Qed.
Print Assumptions C20_eval_mid_in_bounds.

Theorem C20_eval_mid_round_odd : forall (T : Type) (f : Q -> T) nBins nSafety a b l x,
  respects_eq f -> (2 <= nBins)%nat -> ~ a == b -> lut_init id_cast nBins nSafety a b f = Some l ->
  let B := Z.of_nat nBins in let mn := qmin a b in let mx := qmax a b in (nBins mod 2 = 1)%nat -> mn <= x <= mx ->
  exists k, (0 <= k <= B - 1)%Z /\ eval_mid_round l x = Some (f (grid mn mx B k)) /\ Qabs (x - grid mn mx B k) <= gap mn mx B / (2#1).
Proof. intros T f nBins nSafety a b l x F Hb Hab E. rewrite (init_ok f nBins nSafety a b Hab) in E. injection E as <-. exact (eval_mid_round_odd f F nBins nSafety Hb a b Hab x). Qed.
Print Assumptions C20_eval_mid_round_odd.

(** with an even bin count the mid lookup at the domain minimum returns the second grid sample, for every function *)
Theorem C20_eval_mid_even_misses_min : forall (T : Type) (f : Q -> T) nBins nSafety a b l,
  respects_eq f -> (2 <= nBins)%nat -> ~ a == b -> lut_init id_cast nBins nSafety a b f = Some l -> (nBins mod 2 = 0)%nat ->
  eval_mid l (qmin a b) = Some (f (grid (qmin a b) (qmax a b) (Z.of_nat nBins) 1)).
Proof. intros T f nBins nSafety a b l F Hb Hab E. rewrite (init_ok f nBins nSafety a b Hab) in E. injection E as <-. exact (eval_mid_even_min f F nBins nSafety Hb a b Hab). Qed.
Print Assumptions C20_eval_mid_even_misses_min.

Theorem C20_eval_mid_exact_at_ends_refuted : exists (f : Q -> Q) l, lut_init id_cast 4 0 0 1 f = Some l /\ eval_mid l 0 <> Some (f 0).
Proof. eexists (fun x => Qred x), _. split; [ reflexivity | discriminate ]. Qed.
Print Assumptions C20_eval_mid_exact_at_ends_refuted.

(** one entry per integer value: lookups are exact (the 256-entry gradient table of SegmMatcher) *)
Theorem C20_integer_table_exact : forall (T : Type) (f : Q -> T) (m : Z) nBins x, respects_eq f -> (2 <= nBins)%nat ->
  (m <= x <= m + Z.of_nat nBins - 1)%Z ->
  exists l, lut_init (fun q => inject_Z (qtrunc q)) nBins 0 (inject_Z m) (inject_Z (m + Z.of_nat nBins - 1)) f = Some l /\
    eval l (inject_Z x) = Some (f (inject_Z x)) /\ eval_raw l (x - m) = Some (f (inject_Z x)).
Proof. intros T f m nBins x. exact (integer_table f m nBins x). Qed.
Print Assumptions C20_integer_table_exact.

Example C20_ex : option_map (fun l => (eval l (7#10), eval_round l (9#10), eval l (-(1#4)), eval l (-2#1))) (lut_init id_cast 5 1 1 0 Qred)
  = Some (Some (1#2), Some 1, Some 0, None).
Proof. reflexivity. Qed.
