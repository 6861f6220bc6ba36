(** C51: the asynchronous writer with several workers, with none, and with indices queued again. *)
From Coq Require Import ZArith List Bool Lia.
From Verif Require Import Model.Writer Spec.Writer Proofs.Writer Proofs.WriterMany.
Import ListNotations.
Open Scope Z_scope.

(** several workers: as long as nothing is queued in between, all the workers that write write the same packet *)
Theorem C51_workers_take_the_same_packet : forall cmin cmax s l, Forall (fun a => exists k, a = Work k \/ a = Spurious_worker k) l -> (forall k a i sz, nth_error (workers s) k <> Some (Writing a i sz)) ->
  forall j k a b i i' sz sz', nth_error (workers (fst (run cmin cmax s l))) j = Some (Writing a i sz) -> nth_error (workers (fst (run cmin cmax s l))) k = Some (Writing b i' sz') -> a = b /\ i = i'.
Proof. exact same_packet. Qed.
Print Assumptions C51_workers_take_the_same_packet.
(** and the second one to finish erases a node that is gone, which is undefined *)
Theorem C51_second_erase_is_undefined : forall cmin cmax s j k a i i' sz sz' o1 o2, bad s = false -> hung s = false -> NoDup (map id (q s)) -> j <> k ->
  nth_error (workers s) j = Some (Writing a i sz) -> nth_error (workers s) k = Some (Writing a i' sz') -> bad (fst (run cmin cmax s [Done j o1; Done k o2])) = true.
Proof. exact erased_twice. Qed.
Print Assumptions C51_second_erase_is_undefined.
(** so two workers and one packet suffice: it is written twice and the behaviour is undefined *)
Theorem C51_two_workers_refuted : exists cmin cmax l, setting cmin cmax /\ NoDup (asked l) /\ tame cmin cmax init l /\ let '(s, tr) := run cmin cmax init l in
  begun tr = [(1, [7]); (1, [7])] /\ accepted tr = [(1, [7])] /\ bad s = true.
Proof.
  exists 10, 100, [Start 10 false 2; Call 1 [7]; Enter 0 0; Work 0; Work 1; Done 0 true; Done 1 true]. split; [ unfold setting; lia |]. split; [ repeat constructor; cbn; auto |]. split; [ vm_compute; repeat split |]. vm_compute. repeat split.
Qed.
Print Assumptions C51_two_workers_refuted.
(** no worker (nWorkers = 0): packets are accepted and never written, until the next start *)
Theorem C51_no_worker_writes_nothing : forall cmin cmax l s, workers s = [] -> (forall a, In a l -> forall n d w, a <> Start n d w) -> (forall c, ctrl s <> Joining (Some c)) ->
  begun (snd (run cmin cmax s l)) = [] /\ written (snd (run cmin cmax s l)) = [].
Proof. exact no_worker_run. Qed.
Print Assumptions C51_no_worker_writes_nothing.
Example C51_ex_no_worker : workers (fst (run 10 100 init [Start 10 false 0])) = [] /\ snd (run 10 100 init [Start 10 false 0; Call 1 [7]; Enter 0 0; Stop; Joined]) = [Accepted 1 [7] 0; Joined_all].
Proof. split; reflexivity. Qed.

(** one worker, an index queued again while it is being written: the new packet is accepted and erased without being written *)
Theorem C51_requeued_packet_lost_refuted : exists cmin cmax l, setting cmin cmax /\ usual l /\ tame cmin cmax init l /\ let '(s, tr) := run cmin cmax init l in
  accepted tr = [(1, [7; 7]); (1, [8; 8])] /\ begun tr = [(1, [7; 7])] /\ queued s = [] /\ forallb gone (workers s) = true /\ bad s = false.
Proof.
  exists 10, 100, [Start 10 false 1; Call 1 [7; 7]; Enter 0 0; Work 0; Call 1 [8; 8]; Enter 0 0; Done 0 true; Stop; Work 0; Joined]. split; [ unfold setting; lia |]. split; [ split; [ cbn; auto | repeat constructor; cbn; lia ] |]. split; [ vm_compute; repeat split |]. vm_compute. repeat split.
Qed.
Print Assumptions C51_requeued_packet_lost_refuted.
(** if it is a smaller one, the byte count wraps around, and the worker then spins on the next packet without ever giving back the mutex *)
Theorem C51_requeued_packet_hangs_refuted : exists cmin cmax l, setting cmin cmax /\ usual l /\ tame cmin cmax init l /\ let s := fst (run cmin cmax init l) in
  hung s = true /\ active s = true /\ ctrl s = Free /\ queued s = [(2, [9; 9; 9])] /\ qsize s = 2.
Proof.
  exists 10, 100, [Start 10 false 1; Call 1 [7; 7]; Enter 0 0; Work 0; Call 1 [8]; Enter 0 0; Done 0 true; Call 2 [9; 9; 9]; Enter 0 0; Work 0]. split; [ unfold setting; lia |]. split; [ split; [ cbn; auto | repeat constructor; cbn; lia ] |]. split; [ vm_compute; repeat split |]. vm_compute. repeat split.
Qed.
Print Assumptions C51_requeued_packet_hangs_refuted.
(** from then on no packet is accepted or written, and no stop returns, whatever happens *)
Theorem C51_hang_is_permanent : forall cmin cmax l s, hung s = true -> active s = true -> ctrl s = Free ->
  accepted (snd (run cmin cmax s l)) = [] /\ written (snd (run cmin cmax s l)) = [] /\ begun (snd (run cmin cmax s l)) = [] /\ ~ In Joined_all (snd (run cmin cmax s l)).
Proof. exact hung_forever. Qed.
Print Assumptions C51_hang_is_permanent.
(** two workers both writing, as in the first theorems *)
Example C51_ex_two : let s := fst (run 10 100 init [Start 10 false 2; Call 1 [7]; Enter 0 0; Call 2 [8]; Enter 0 1]) in
  workers s = [Ready; Ready] /\ workers (fst (run 10 100 s [Work 1; Work 0])) = [Writing 0 1 1; Writing 0 1 1] /\ map id (q s) = [0; 1].
Proof. vm_compute. repeat split. Qed.
