(* C111: submodular bounds of set functions. *)
From Coq Require Import ZArith List Bool Lia.
From Verif Require Import Lib.Grid Model.Submodular Spec.Submodular Proofs.Submodular Proofs.SubmodularUpper Proofs.SubmodularBound.
Import ListNotations.
Open Scope Z_scope.

Definition values (l : list Z) (s : Z) : Z := nth (Z.to_nat s) l 0.
Definition shown (l : list Z) (r : run table) : list Z := match r with Done g => map g l | _ => [] end.
Definition wild : table := values [0; 3; 1; 9; 2; 4; 8; 5].
Example C111_ex_wild : ~ submodular 3 wild.
Proof. intros H. apply check_iff in H; [discriminate|lia]. Qed.

(* NextPerm is the next larger word with as many bits. *)
Theorem C111_next z v : 0 < v < 2 ^ 31 -> exists v', next_perm z v = Done v' /\ v < v' < 2 ^ 32 /\ size 32 v' = size 32 v /\ (forall w, v < w < v' -> size 32 w <> size 32 v).
Proof. exact (next_perm_size z v). Qed.
Print Assumptions C111_next.
Example C111_ex_next : next_perm None 11 = Done 13 /\ next_perm None 12 = Done 17 /\ next_perm None (2 ^ 31 - 1) = Done (2 ^ 31 + (2 ^ 30 - 1)).
Proof. repeat split; reflexivity. Qed.
(* The loops of the bounds visit each set of k elements exactly once. *)
Theorem C111_visits z n k : 0 <= n < 32 -> 1 <= k <= n -> exists l, walk z (turns n) (2 ^ n - 1) (2 ^ k - 1) (@cons Z) [] = Done l /\ NoDup l /\ (forall S, In S l <-> within n S /\ size n S = k).
Proof. exact (walk_visits z n k). Qed.
Print Assumptions C111_visits.

(* SubmodularLowerBound: always ends; the result is submodular, nowhere above the table; the value returned is the largest decrease, zero exactly if the table was submodular;
   a value that is lowered is lowered just enough for some pair of its elements. *)
Theorem C111_lower z n f : 0 <= n < 32 -> exists g d, lower_bound z n f false = Done (g, d) /\ contained n g f /\ below n g f /\ submodular n g /\
  (forall S, within n S -> f S - g S <= d) /\ (d = 0 \/ exists S, within n S /\ d = f S - g S) /\ (d = 0 <-> submodular n f) /\
  (forall S, within n S -> g S = f S \/ exists i j, i <> j /\ Z.testbit S i = true /\ Z.testbit S j = true /\
     g S + g (Z.land (S - 2 ^ i) (S - 2 ^ j)) = g (S - 2 ^ i) + g (S - 2 ^ j)).
Proof. exact (lower_all z n f). Qed.
Print Assumptions C111_lower.
Example C111_ex_lower : match lower_bound None 3 wild false with Done (g, d) => (map g [0; 1; 2; 3; 4; 5; 6; 7], d) | _ => ([], 0) end = ([0; 3; 1; 4; 2; 4; 3; 5], 5).
Proof. vm_compute. reflexivity. Qed.
(* With early_finish it stops after the single elements, where there is nothing to do: it never changes the table and returns zero. *)
Theorem C111_early z n f : 1 <= n < 32 -> exists g, lower_bound z n f true = Done (g, 0) /\ forall S, g S = f S.
Proof. exact (lower_early z n f). Qed.
Print Assumptions C111_early.
Theorem C111_early_refuted : exists n f g, 0 <= n < 32 /\ lower_bound None n f true = Done (g, 0) /\ ~ submodular n g.
Proof.
  destruct (C111_early None 3 wild ltac:(lia)) as (g & E & G). exists 3, wild, g. split; [lia|]. split; [exact E|]. intros H. apply C111_ex_wild. intros A B HA HB. specialize (H A B HA HB). rewrite !G in H. exact H.
Qed.
Print Assumptions C111_early_refuted.

(* UpperBoundCVPR14, whatever __builtin_ctz(0) yields: when it returns, the table is submodular and nowhere below the original, unchanged for no element and for all. *)
Theorem C111_cvpr14 z rounds n f : 0 <= n < 32 -> match upper_cvpr14 (Some z) rounds n f with
  | Done g => submodular n g /\ (forall S, f S <= g S) /\ contained n g f /\ g 0 = f 0 /\ g (whole n) = f (whole n)
  | Running => True | _ => False end.
Proof. intros H. assert (X := cvpr14_ok z rounds n f H). destruct (upper_cvpr14 (Some z) rounds n f); exact X. Qed.
Print Assumptions C111_cvpr14.
Example C111_ex_cvpr14 : shown [0; 1; 2; 3; 4; 5; 6; 7] (upper_cvpr14 (Some 31) 5 3 wild) = [0; 6; 4; 9; 5; 4; 8; 5].
Proof. vm_compute. reflexivity. Qed.
(* A round is never in vain: some value rises. *)
Theorem C111_progress z rounds n f : 0 <= n < 32 -> ~ submodular n f -> exists f', upper_cvpr14 (Some z) (S rounds) n f = upper_cvpr14 (Some z) rounds n f' /\
  (forall S, f S <= f' S) /\ exists S, within n S /\ f S < f' S.
Proof. intros H NS. destruct (cvpr14_round z n rounds f H NS) as (f' & E & (A & _) & B). exists f'. auto. Qed.
Print Assumptions C111_progress.
(* For two elements one round is enough, and raises by no more than needed, up to rounding. *)
Theorem C111_cvpr14_two z f : exists g, upper_cvpr14 (Some z) 1 2 f = Done g /\ (submodular 2 f -> same 2 g f) /\ (~ submodular 2 f -> 0 <= g 1 + g 2 - (f 0 + f 3) <= 1).
Proof. exact (cvpr14_two z f). Qed.
Print Assumptions C111_cvpr14_two.
(* __builtin_ctz(0) is undefined, and every table that is not submodular gets there. *)
Theorem C111_undefined rounds n f : 0 <= n < 32 -> ~ submodular n f -> upper_cvpr14 None (S rounds) n f = Undefined.
Proof. exact (cvpr14_undefined rounds n f). Qed.
Print Assumptions C111_undefined.
Theorem C111_undefined_refuted : exists n f, 0 <= n < 32 /\ forall rounds, upper_cvpr14 None (S rounds) n f = Undefined.
Proof. exists 3, wild. split; [lia|]. intros rounds. apply C111_undefined; [lia|exact C111_ex_wild]. Qed.
Print Assumptions C111_undefined_refuted.

(* ChenUpperBound: if it does not call exit, the same; it is exact for two elements. *)
Theorem C111_chen z n f : 0 <= n < 32 -> match upper_chen z n f with
  | Done g => submodular n g /\ (forall S, f S <= g S) /\ contained n g f /\ g 0 = f 0 /\ g (whole n) = f (whole n)
  | Exit => True | _ => False end.
Proof. intros H. assert (X := chen_ok z 1000 n f H). unfold upper_chen. destruct (chen_loop z 1000 n f); exact X. Qed.
Print Assumptions C111_chen.
Theorem C111_chen_two z f : exists g, upper_chen z 2 f = Done g /\ (submodular 2 f -> same 2 g f) /\ (~ submodular 2 f -> g 1 + g 2 = f 0 + f 3).
Proof. exact (chen_two z 999 f). Qed.
Print Assumptions C111_chen_two.
Example C111_ex_chen : shown [0; 1; 2; 3; 4; 5; 6; 7] (upper_chen None 3 wild) = [0; 5; 4; 9; 5; 4; 8; 5].
Proof. vm_compute. reflexivity. Qed.
