(** C48: the asynchronous precacher. *)
From Coq Require Import ZArith List Bool.
From Verif Require Import Model.Precacher Spec.Precacher Proofs.Precacher.
Import ListNotations.
Open Scope Z_scope.

(** for every data loader, buffer limits and schedule of calls, time-outs and worker steps: a packet returned for index i with its memory in place has the
    bytes the loader gives for i *)
Theorem C48_returned : forall src cmin cmax, setting src cmin cmax -> forall l i p, Forall act_ok l ->
  In (Returned i (Some p)) (snd (run src cmin cmax init l)) -> src i = Some p.
Proof. intros src cmin cmax (E & S) l i p. now apply returned_ok. Qed.
Print Assumptions C48_returned.
(** no assertion fails and the cache is never popped when empty *)
Theorem C48_no_failure : forall src cmin cmax, setting src cmin cmax -> forall l, Forall act_ok l -> ~ In Failed (snd (run src cmin cmax init l)).
Proof. intros src cmin cmax (E & S) l. now apply never_failed. Qed.
Print Assumptions C48_no_failure.
(** whenever the client is not inside getPacket, the packet it was given last still has its bytes, whatever the worker has cached since *)
Theorem C48_held : forall src cmin cmax, setting src cmin cmax -> forall l p, Forall act_ok l -> let s := fst (run src cmin cmax init l) in
  (forall i na, client s <> Waiting i na) -> last_idx s <> NIL -> content s (last_p s) = Some p -> src (last_idx s) = Some p.
Proof. intros src cmin cmax (E & S) l p. now apply held_ok. Qed.
Print Assumptions C48_held.
(** with a loader that never throws, and without stopping, every call returns its packet and the memory of the last one is in place *)
Theorem C48_always_served : forall src cmin cmax, setting src cmin cmax -> forall n l, (forall i, src i <> None) -> 0 < n -> Forall act_ok l -> Forall quiet l ->
  Forall (fun o => exists i p, o = Returned i (Some p) /\ src i = Some p) (snd (run src cmin cmax init (Start n :: l))) /\
  content (fst (run src cmin cmax init (Start n :: l))) (last_p (fst (run src cmin cmax init (Start n :: l)))) <> None.
Proof. intros src cmin cmax (E & S) n l. now apply always_served. Qed.
Print Assumptions C48_always_served.
(** a waiting client can always finish: one round of the worker answers it, or its exception is reported *)
Theorem C48_progress : forall src cmin cmax, setting src cmin cmax -> forall l, Forall act_ok l -> let s := fst (run src cmin cmax init l) in
  forall i na, client s = Waiting i na ->
  (worker s <> None -> forall p, src i = Some p -> snd (run src cmin cmax s [WFilled; WAnswer; Timeout; Finish]) = [Returned i (Some p)] /\ client (fst (run src cmin cmax s [WFilled; WAnswer; Timeout; Finish])) = Idle) /\
  (worker s = None -> snd (step src cmin cmax s Finish) = [Threw]).
Proof.
  intros src cmin cmax (E & S) l Ok s i na Ci. pose proof (reachable_inv src E cmin cmax S l Ok) as Iv. fold s in Iv. split.
  - intros W p Ep. now apply answered with na.
  - intro W. now apply exception_reported with i na.
Qed.
Print Assumptions C48_progress.
(** a stopping client can always finish *)
Theorem C48_join : forall src cmin cmax, setting src cmin cmax -> forall l, Forall act_ok l -> let s := fst (run src cmin cmax init l) in
  forall n, client s = Joining n -> client (fst (run src cmin cmax s [WFilled; WIdle; Joined])) = Idle.
Proof.
  intros src cmin cmax (E & S) l Ok s n Ci. pose proof (reachable_inv src E cmin cmax S l Ok) as Iv. fold s in Iv. destruct (join_ends src cmin cmax s n Iv Ci) as (k & <- & K). exact K.
Qed.
Print Assumptions C48_join.
(** index size_t(-1) is not a valid request: the previous packet is returned for it *)
Definition one_two (i : Z) : option (list Z) := if i =? 0 then Some [1; 2] else Some [].
Theorem C48_last_index_refuted : exists l, In (Returned NIL (Some [1; 2])) (snd (run one_two 100 100 init l)) /\ one_two NIL <> Some [1; 2].
Proof. exists [Start 100; WFilled; Get 0; WAnswer; Timeout; Finish; Get NIL; Finish]. split; [ vm_compute; tauto | discriminate ]. Qed.
Print Assumptions C48_last_index_refuted.
(** once the worker has seen the end of the data and its cache is used up, it never caches again until restarted: a second pass over the data is not precached *)
Theorem C48_end_stops_caching : forall src cmin cmax l s, spent s -> (forall n, client s <> Joining (Some n)) -> Forall no_start l -> spent (fst (run src cmin cmax s l)).
Proof. intros. now apply spent_forever. Qed.
Print Assumptions C48_end_stops_caching.

(** packets of two to four bytes in a buffer of ten: wraps around, skips and goes back *)
Definition toy (i : Z) : option (list Z) := if i <? 8 then Some (map (fun k => 10 * i + Z.of_nat k) (seq 0 (Z.to_nat (2 + i mod 3)))) else Some [].
Example C48_ex_setting : setting toy 10 10.
Proof. unfold setting, toy, NIL. split; [| split; [ split; discriminate || reflexivity | reflexivity ] ]. intros p H. cbn in H. congruence. Qed.
Definition toy_run : list act := [Start 10; WCache; WCache; WCache; WCache; Get 0; WAnswer; Timeout; Finish; WCache; Get 1; WAnswer; Timeout; Finish; WCache; WCache; Get 3; WAnswer; Timeout; Finish; WCache; Get 4; WAnswer; Timeout; Finish; WCache; WCache; Get 2; WAnswer; Timeout; Finish; WCache; WCache; Get 3; WAnswer; Timeout; Finish].
Example C48_ex_wraps : exists g off n b w, worker (fst (run toy 10 10 init (firstn 15 toy_run))) = Some (b, w) /\ last_p (fst (run toy 10 10 init (firstn 15 toy_run))) = View g off n /\ next w <= first w.
Proof. do 5 eexists. vm_compute. split; [ reflexivity |]. split; [ reflexivity | discriminate ]. Qed.
Example C48_ex : snd (run toy 10 10 init toy_run) = [Returned 0 (Some [0; 1]); Returned 1 (Some [10; 11; 12]); Returned 3 (Some [30; 31]); Returned 4 (Some [40; 41; 42]); Returned 2 (Some [20; 21; 22; 23]); Returned 3 (Some [30; 31])].
Proof. vm_compute. reflexivity. Qed.
(** the end is reached, the three packets are read, and the second pass finds nothing cached *)
Definition three (i : Z) : option (list Z) := if i <? 3 then Some [i; i] else Some [].
Example C48_ex_spent : exists b w, worker (fst (run three 100 100 init [Start 100; WCache; WCache; WCache; WCache; Get 2; WAnswer; Timeout; Finish; Get 0; WAnswer; Timeout; Finish])) = Some (b, w) /\ spent (fst (run three 100 100 init [Start 100; WCache; WCache; WCache; WCache; Get 2; WAnswer; Timeout; Finish; Get 0; WAnswer; Timeout; Finish])).
Proof. do 2 eexists. vm_compute. repeat split. Qed.
