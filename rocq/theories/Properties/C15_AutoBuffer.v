(** C15: over every sequence of legal client operations on any number of AutoBuffers, every operation meets its vector contract, no access
    leaves a live block, nothing is freed twice and nothing leaks. *)
From Coq Require Import List Arith ZArith Lia.
From Verif Require Import Model.AutoBuffer Spec.AutoBuffer Proofs.AutoBuffer.
Import ListNotations.
Open Scope nat_scope.

Theorem C15_operations_meet_contract : forall w p, reachable w -> legal w p ->
  exists w', exec w p = Some w' /\ contract (nst_of w) p (view w) (view w').
Proof. intros w p R L. destruct (exec_good w p (reachable_good w R) L) as (w' & E & _ & C). now exists w'. Qed.
Print Assumptions C15_operations_meet_contract.

Theorem C15_never_faults : forall l, legal_run empty_world l -> run empty_world l <> None.
Proof. intros l L. destruct (run_good l _ empty_good L) as (w & E & _). congruence. Qed.
Print Assumptions C15_never_faults.

Theorem C15_read_returns_element : forall w o i l, reachable w -> view w o = Some l -> i < length l -> get w o i = nth_error l i.
Proof. intros w o i l R. exact (get_view w o i l (reachable_good w R)). Qed.
Print Assumptions C15_read_returns_element.

(** each live heap block belongs to exactly one live object, which points at it; no other object points at it *)
Theorem C15_no_leak_no_sharing : forall w b, reachable w -> heap w b <> None ->
  exists o ob, objs w o = Some ob /\ dyn ob = Some b /\ ptr ob = PHeap b /\
    forall o' ob', objs w o' = Some ob' -> dyn ob' = Some b \/ ptr ob' = PHeap b -> o' = o.
Proof. intros w b R. exact (heap_owner w b (reachable_good w R)). Qed.
Print Assumptions C15_no_leak_no_sharing.

(** at() with a non-negative index throws exactly outside the size and otherwise returns the element *)
Theorem C15_at_checked : forall w o l i, reachable w -> view w o = Some l -> (0 <= i)%Z ->
  at_ w o i = Some (if (i <? Z.of_nat (length l))%Z then nth_error l (Z.to_nat i) else None).
Proof. intros w o l i R. exact (at_nonneg w o l i (reachable_good w R)). Qed.
Print Assumptions C15_at_checked.

(** growth by push_back doubles the capacity; the debug assertion after it holds iff the capacity was not 1 *)
Theorem C15_push_back_growth : forall w o ob w1 ob1, reachable w -> objs w o = Some ob -> used ob = cap ob ->
  reserve w o (cap ob * 2) = Some w1 -> objs w1 o = Some ob1 -> cap ob1 = 2 * cap ob /\ (cap ob1 > used ob1 + 1 <-> cap ob <> 1).
Proof. intros w o ob w1 ob1 R. exact (push_grow_capacity w o ob w1 ob1 (reachable_good w R)). Qed.
Print Assumptions C15_push_back_growth.

(** a history crossing from the static array to the heap, copying and moving between static sizes and coming back *)
Definition ex_ops : list op :=
  [Ctor 0 2 0; PushVal 0 10; PushVal 0 11; PushElem 0 0 1; Put 0 0 7; CopyCtor 1 5 0; MoveCtor 2 1 0; Resize 1 1; MoveAssign 1 2; ResizeStatic 1; Clear 2].
Example C15_ex_history : option_map (fun w => (view w 0, view w 1, view w 2)) (run empty_world ex_ops)
  = Some (Some [], Some [Some 7%Z; Some 11%Z; Some 11%Z; None; None], Some []).
Proof. reflexivity. Qed.
Example C15_ex_legal : legal_run empty_world ex_ops.
Proof.
  unfold ex_ops. repeat (split; [ try exact I; cbn; try lia; try discriminate |]; intros w' E; vm_compute in E; injection E as <-);
  try exact I; auto with arith.
  all: try (split; [ vm_compute; auto with arith | intros _; right; reflexivity ]).
Qed.
Example C15_ex_contract_excludes : ~ contract (fun _ => 2) (PushVal 0 3) (fun _ => Some [Some 1%Z]) (fun _ => Some [Some 3%Z; Some 1%Z]).
Proof. intros [H _]. destruct (H ltac:(discriminate)) as (_ & l & l' & A & B & C). injection A as <-. injection B as <-. discriminate. Qed.
