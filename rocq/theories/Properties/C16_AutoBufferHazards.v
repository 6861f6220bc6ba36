(** C16: the operation sequences excluded from C15 are exactly the ones that leave dangling pointers. *)
From Coq Require Import List Arith ZArith Lia.
From Verif Require Import Model.AutoBuffer Spec.AutoBuffer Proofs.AutoBuffer.
Import ListNotations.
Open Scope nat_scope.

(** moving a statically stored buffer into one of the same type leaves the destination pointing into the source object: writes to the source
    show through, and once the source is gone every access through the destination faults *)
Theorem C16_same_size_move_static_aliases_source : forall w o ns s sb, reachable w -> objs w s = Some sb -> objs w o = None ->
  is_static w s = true -> ns = nst sb -> 1 <= ns ->
  exists w', exec w (MoveCtor o ns s) = Some w' /\ exists ob', objs w' o = Some ob' /\ ptr ob' = PStatic s /\
    (forall v i w2, i < used sb -> exec w' (Put s i v) = Some w2 -> get w2 o i = Some (Some v)) /\
    (forall w2, exec w' (Destroy s) = Some w2 -> forall i, exec w2 (Get o i) = None) /\
    (exists w2, exec w' (Destroy s) = Some w2 /\ objs w2 o = Some ob').
Proof. intros w o ns s sb R. exact (implicit_move_static w o ns s sb (reachable_good w R)). Qed.
Print Assumptions C16_same_size_move_static_aliases_source.

(** moving a heap-stored buffer leaves the source claiming the same elements; destroying the destination makes every access through the
    source a use after free *)
Theorem C16_same_size_move_heap_aliases_source : forall w o ns s sb, reachable w -> objs w s = Some sb -> objs w o = None ->
  is_static w s = false -> ns = nst sb -> 1 <= ns -> 1 <= used sb ->
  exists w' w2, exec w (MoveCtor o ns s) = Some w' /\ view w' s = view w' o /\ exec w' (Destroy o) = Some w2 /\
    forall i, exec w2 (Get s i) = None.
Proof. intros w o ns s sb R. exact (implicit_move_dynamic w o ns s sb (reachable_good w R)). Qed.
Print Assumptions C16_same_size_move_heap_aliases_source.

(** push_back(buf[i]) on a full heap-stored buffer always reads the freed block *)
Theorem C16_push_own_element_when_full : forall w o i, reachable w -> alive w o = true -> is_static w o = false -> full w o = true ->
  exec w (PushElem o o i) = None.
Proof. intros w o i R. exact (push_self_full_heap w o i (reachable_good w R)). Qed.
Print Assumptions C16_push_own_element_when_full.

(** at() with a negative signed index passes the check and reads outside the block *)
Theorem C16_at_negative_index_unchecked : forall w o i, (i < 0)%Z -> alive w o = true -> at_ w o i = None.
Proof. exact at_negative. Qed.
Print Assumptions C16_at_negative_index_unchecked.

Example C16_ex_static_move :
  run empty_world [Ctor 0 4 2; Put 0 0 7; MoveCtor 1 4 0; Get 1 0] <> None /\
  run empty_world [Ctor 0 4 2; Put 0 0 7; MoveCtor 1 4 0; Destroy 0; Get 1 0] = None.
Proof. split; [ discriminate | reflexivity ]. Qed.
Example C16_ex_push_self :
  run empty_world [Ctor 0 2 3; PushElem 0 0 1] = None /\ run empty_world [Ctor 0 2 2; PushElem 0 0 1] <> None.
Proof. split; [ reflexivity | discriminate ]. Qed.
