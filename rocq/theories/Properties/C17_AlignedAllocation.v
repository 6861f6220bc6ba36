(** C17: byte counts requested by AlignedMemAllocator::allocate. *)
From Coq Require Import ZArith.
From Verif Require Import Model.Tables Proofs.Tables.
Open Scope Z_scope.

Theorem C17_allocation_size : forall n elem align, 1 <= elem -> 1 <= align < 2^64 -> 0 <= n <= max_size elem align ->
  let s := alloc_bytes n elem align in s mod align = 0 /\ n * elem <= s < n * elem + align /\ s < 2^64.
Proof. exact alloc_bytes_spec. Qed.
Print Assumptions C17_allocation_size.

Theorem C17_allocation_least : forall n elem align m, 1 <= elem -> 1 <= align < 2^64 -> 0 <= n <= max_size elem align ->
  m mod align = 0 -> n * elem <= m -> alloc_bytes n elem align <= m.
Proof. exact alloc_bytes_least. Qed.
Print Assumptions C17_allocation_least.

(** allocate itself does not check max_size: past it the request can wrap to fewer bytes than the elements need *)
Theorem C17_unchecked_count_refuted : exists n, max_size 2 16 < n < 2^64 /\ alloc_bytes n 2 16 < n * 2.
Proof. exact (alloc_bytes_wraps 2 16 eq_refl eq_refl). Qed.
Print Assumptions C17_unchecked_count_refuted.

Example C17_ex : alloc_bytes 5 3 16 = 16 /\ alloc_bytes 6 3 16 = 32 /\ alloc_bytes 7 1 24 = 24 /\ 6 <= max_size 3 16.
Proof. repeat split; discriminate. Qed.
