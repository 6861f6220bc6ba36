From Coq Require Import ZArith List Bool Lia.
From Verif Require Import Model.CudaToggle Spec.CudaToggle Proofs.CudaToggle.
Import ListNotations.
Open Scope Z_scope.

(* after any calls: an algorithm that says it is parallel is of type CUDA, has been initialized, and its device and information are of a device that can be used *)
Theorem C123_parallel : forall d cs a, In a (algos (run d cs)) -> (is_parallel a = true <-> algo_type a = Cuda) /\ (is_parallel a = true -> usable (devices d) (capable d) (device a) /\ info a = Some (device a)).
Proof.
  intros d cs a I. assert (F := run_good d cs). rewrite Forall_forall in F. destruct (F a I) as [A B]. unfold is_parallel, algo_type. split; [destruct (use a); split; try reflexivity; discriminate|]. intros U. rewrite (A U) in B. exact B.
Qed.
Print Assumptions C123_parallel.
(* one without a device has number -1 and no information, and cannot be enabled; with one, it can be switched at will, with nothing else changed *)
Theorem C123_switch : forall d cs a, In a (algos (run d cs)) -> (info a = None <-> device a = -1) /\ (info a = None <-> enable a true = None) /\
  forall b, (b = false \/ info a <> None) -> exists a', enable a b = Some a' /\ is_parallel a' = b /\ device a' = device a /\ info a' = info a.
Proof.
  intros d cs a I. assert (F := run_good d cs). rewrite Forall_forall in F. destruct (F a I) as [A B]. destruct a as [u r v i]. cbn [use ready device info] in *. unfold enable. cbn [use ready device info]. destruct r.
  - destruct B as [[B _] ->]. split; [split; [discriminate|lia]|]. split; [split; [discriminate|destruct u; cbn [andb negb]; discriminate]|]. intros b _. destruct b, u; cbn [andb negb]; eexists; (split; [reflexivity|]); repeat split.
  - destruct B as [-> ->]. destruct u; [discriminate (A eq_refl)|]. split; [split; reflexivity|]. split; [split; reflexivity|]. intros b [-> |N]; [|congruence]. cbn [andb negb]. eexists. split; [reflexivity|]. repeat split.
Qed.
Print Assumptions C123_switch.
(* initialization succeeds just for devices that can be used; if it fails, what the algorithm had before is lost *)
Theorem C123_init : forall d cur id, (is_parallel (fst (try_init d cur id)) = true <-> usable (devices d) (capable d) id) /\ (~ usable (devices d) (capable d) id -> enable (fst (try_init d cur id)) true = None).
Proof.
  intros d cur id. destruct (init_spec d cur id) as (A & _ & _). unfold try_init. destruct (init d cur id) as [ok cur']. cbn [fst] in A. destruct ok; cbn [fst]; unfold is_parallel; cbn [use].
  - split; [tauto|]. intros N. exfalso. apply N. apply A. reflexivity.
  - split; [exact A|]. intros _. reflexivity.
Qed.
Print Assumptions C123_init.
(* where no device can be used, nothing is ever parallel *)
Theorem C123_none : forall d cs a, (forall id, ~ usable (devices d) (capable d) id) -> In a (algos (run d cs)) -> is_parallel a = false.
Proof. intros d cs a N I. destruct (is_parallel a) eqn:P; [exfalso|reflexivity]. destruct (C123_parallel d cs a I) as [_ X]. exact (N _ (proj1 (X P))). Qed.
Print Assumptions C123_none.
(* in programs that name one device only, it is the current one while any algorithm is parallel *)
Theorem C123_device : forall d cs id a, (forall c, In c cs -> match c with New _ i => i = id | Init _ i => i = id | Enable _ _ => True end) -> In a (algos (run d cs)) -> is_parallel a = true -> device a = id /\ current (run d cs) = id.
Proof.
  intros d cs id a O I U. assert (F := run_good d cs). rewrite Forall_forall in F. destruct (F a I) as [A _].
  assert (P : Forall (placed id (current (run d cs))) (algos (run d cs))). { apply (run_invariant d (fun w => Forall (placed id (current w)) (algos w))); [constructor|]. intros w c J. apply step_placed. exact (O c J). }
  rewrite Forall_forall in P. exact (P a I (A U)).
Qed.
Print Assumptions C123_device.
(* but the current device is shared: a second algorithm moves the first to its own, even one without the capabilities, which then is in use by nobody but the first *)
Theorem C123_device_refuted : exists d a b, (run d [New true 0; New true 1] = {| current := 1; algos := [a; b] |}) /\ is_parallel a = true /\ device a = 0 /\ is_parallel b = false /\ capable d 1 = false.
Proof. exists {| devices := 2; capable := fun i => i =? 0 |}. eexists. eexists. repeat split; reflexivity. Qed.
Print Assumptions C123_device_refuted.

Example C123_ex : let d := {| devices := 2; capable := fun i => i =? 1 |} in map (fun a => (is_parallel a, device a)) (algos (run d [New true 0; New false 1; Enable 1 true; Init 1 1; New true 1; Enable 2 false; Enable 0 true])) = [(false, -1); (true, 1); (false, 1)].
Proof. reflexivity. Qed.
