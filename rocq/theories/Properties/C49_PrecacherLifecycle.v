(** C49: what stopping the precacher and exceptions of the data loader do to packets and later calls. *)
From Coq Require Import ZArith List Bool.
From Verif Require Import Model.Precacher Spec.Precacher Proofs.Precacher.
Import ListNotations.
Open Scope Z_scope.

Definition fails_at_3 (i : Z) : option (list Z) := if i =? 3 then None else Some [i; i].
(** an exception of the loader while the worker caches a later packet frees the memory of the packet the client is using, with no call in between *)
Theorem C49_exception_frees_packet_refuted : exists src cmin cmax l, setting src cmin cmax /\ Forall act_ok l /\
  let s := fst (run src cmin cmax init l) in let s' := fst (step src cmin cmax s WCache) in
  client s = Idle /\ last_idx s = 0 /\ content s (last_p s) = Some [0; 0] /\
  last_idx s' = 0 /\ content s' (last_p s') = None /\ snd (step src cmin cmax s' (Get 0)) = [Returned 0 None].
Proof.
  exists (fun i => if i =? NIL then Some [] else fails_at_3 i), 100, 100, [Start 100; WCache; WCache; WFilled; Get 0; WAnswer; Timeout; Finish; WCache].
  split. { split; [| split; [ split; discriminate || reflexivity | reflexivity ] ]. intros p H. cbn in H. congruence. }
  split. { repeat constructor; discriminate || reflexivity. } vm_compute. repeat split.
Qed.
Print Assumptions C49_exception_frees_packet_refuted.
(** after stopping (and restarting), asking again for the last index returns memory that was freed *)
Theorem C49_stop_frees_packet_refuted : exists src cmin cmax l, setting src cmin cmax /\ Forall act_ok l /\ (forall i, src i <> None) /\
  In (Returned 0 None) (snd (run src cmin cmax init l)).
Proof.
  exists (fun i => if i =? 0 then Some [7] else Some []), 100, 100, [Start 100; WCache; WCache; Get 0; WAnswer; Timeout; Finish; Stop; WIdle; Joined; Start 100; Get 0].
  split. { split; [| split; [ split; discriminate || reflexivity | reflexivity ] ]. intros p H. cbn in H. congruence. }
  split. { repeat constructor; discriminate || reflexivity. } split. { intro i. destruct (i =? 0); discriminate. } vm_compute. tauto.
Qed.
Print Assumptions C49_stop_frees_packet_refuted.

(** after an exception of the worker there is never a worker again, whatever is called: starting and stopping only throw the same exception again *)
Theorem C49_exception_is_permanent : forall src cmin cmax l s, exc s = true -> worker s = None ->
  exc (fst (run src cmin cmax s l)) = true /\ worker (fst (run src cmin cmax s l)) = None.
Proof. intros. now apply broken_forever. Qed.
Print Assumptions C49_exception_is_permanent.
Theorem C49_start_rethrows : forall src cmin cmax s n, exc s = true -> worker s = None -> client s = Idle -> got s = false ->
  snd (run src cmin cmax s [Start n; Joined]) = [Threw] /\ snd (run src cmin cmax s [Stop; Joined]) = [Threw].
Proof. intros. now apply broken_start. Qed.
Print Assumptions C49_start_rethrows.
(** the states meant above occur: a loader failing at packet 3, noticed at the next request; packets are then loaded directly *)
Example C49_ex : let s := fst (run fails_at_3 100 100 init [Start 100; WCache; WCache; WCache; WCache; Get 0; Finish]) in
  exc s = true /\ worker s = None /\ client s = Idle /\ got s = false /\
  snd (run fails_at_3 100 100 s [Get 0; Get 3; Get 4; Start 5; Stop; Get 4; Get 1]) = [Returned 0 (Some [0; 0]); Threw; Returned 4 (Some [4; 4]); Threw; Threw; Returned 4 (Some [4; 4]); Returned 1 (Some [1; 1])].
Proof. vm_compute. repeat split. Qed.
