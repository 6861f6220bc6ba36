From Coq Require Import ZArith QArith List Bool Lia Factorial.
From Verif Require Import Lib.Grid Model.KOfN Spec.KOfN Proofs.KOfN.
Import ListNotations.
Open Scope Z_scope.

(* whatever is drawn, _kOfN_smallK gives k increasing numbers below n, and touches nothing else *)
Theorem C116_small : forall k n off xs v v' rest, 1 <= k <= n -> small (Z.to_nat n) k n off xs v = Some (v', rest) -> sample k n off v' /\ forall j, j < off \/ off + k <= j -> v' j = v j.
Proof. intros k n off xs v v' rest H E. assert (A := small_ok (Z.to_nat n) k n off xs v H ltac:(lia)). rewrite E in A. exact A. Qed.
Print Assumptions C116_small.

(* the recursion is never deeper than n: what stops it is a missing number, not the depth *)
Theorem C116_small_depth : forall fuel k n off xs v, 1 <= k <= n -> n <= Z.of_nat fuel -> small fuel k n off xs v = small (Z.to_nat n) k n off xs v.
Proof. intros fuel k n off xs v H F. apply small_fuel; lia. Qed.
Print Assumptions C116_small_depth.

(* in each half there is room for the numbers that go there *)
Theorem C116_room : forall k n leftN xs l r rest, 0 <= k <= n -> 0 <= leftN <= n -> split (Z.to_nat k) 0 n leftN 0 0 xs = Some (l, r, rest) -> 0 <= l <= leftN /\ 0 <= r <= n - leftN /\ l + r = k.
Proof. intros k n leftN xs l r rest H HN E. assert (A := split_ok n leftN HN (Z.to_nat k) 0 0 0 xs ltac:(lia) ltac:(lia) eq_refl ltac:(lia)). rewrite E in A. lia. Qed.
Print Assumptions C116_room.

(* and any k increasing numbers below n can be what it gives *)
Theorem C116_small_all : forall k n off t, 1 <= k <= n -> sample k n off t -> exists xs, forall v, exists v', small (Z.to_nat n) k n off xs v = Some (v', []) /\ forall j, off <= j < off + k -> v' j = t j.
Proof. intros k n off t H T. destruct (small_all (Z.to_nat n) k n off t [] H ltac:(lia) T) as (ys & A). exists ys. intros v. destruct (A v) as (v' & B). rewrite app_nil_r in B. exists v'. exact B. Qed.
Print Assumptions C116_small_all.

(* _kOfN_largeK takes number after number by its chance, in order; all else is left *)
Theorem C116_large : forall k n xs v, 0 <= n -> Z.of_nat (length xs) = n -> exists v', large (Z.to_nat n) 0 n k 0 xs v = Some (taken (choices k n xs), v', []) /\
  (forall a d, (a < length (picks 0 (choices k n xs)))%nat -> v' (Z.of_nat a) = nth a (picks 0 (choices k n xs)) d) /\ forall a, a < 0 \/ taken (choices k n xs) <= a -> v' a = v a.
Proof.
  intros k n xs v Hn L. destruct (large_ok n k (Z.to_nat n) 0 0 xs v ltac:(lia) ltac:(lia)) as (v' & A & P & Q & R). rewrite !Z.sub_0_r in *. replace (Z.to_nat n) with (length xs) in * by lia. rewrite firstn_all, skipn_all in *. exists v'. split; [exact A|]. split; [exact Q|]. intros a [Ha|Ha]; [exact (P a Ha)|exact (R a Ha)].
Qed.
Print Assumptions C116_large.
Theorem C116_large_sample : forall k n xs v, 0 <= k <= n -> Z.of_nat (length xs) = n -> (forall x, In x xs -> (0 <= x < 1)%Q) -> exists v', large (Z.to_nat n) 0 n k 0 xs v = Some (k, v', []) /\ sample k n 0 v' /\ forall a, a < 0 \/ k <= a -> v' a = v a.
Proof. intros k n xs v H L B. exact (large_sample n k xs v H L B). Qed.
Print Assumptions C116_large_sample.
(* all samples have the same chance there: k! (n - k)! / n! *)
Theorem C116_large_uniform : forall k n ds, length ds = n -> taken ds = Z.of_nat k -> (odds (Z.of_nat k) (Z.of_nat n) ds == inject_Z (Z.of_nat (fact k) * Z.of_nat (fact (n - k))) / inject_Z (Z.of_nat (fact n)))%Q.
Proof.
  intros k n ds L T. subst n. assert (A := odds_ok ds). rewrite T, Nat2Z.id in A. assert (P := ffact_pos (length ds)). unfold ffact in *. rewrite <- A. field. intros E. unfold Qeq, inject_Z in E. cbn [Qnum Qden] in E. lia.
Qed.
Print Assumptions C116_large_uniform.

(* so kOfN gives k numbers by either way, if the real numbers drawn are below 1 *)
Theorem C116_kofn : forall use_small k n ints reals v, 0 <= k <= n -> Z.of_nat (length reals) = n -> (forall x, In x reals -> (0 <= x < 1)%Q) ->
  match kofn use_small k n ints reals v with Some (c, v') => c = k /\ sample k n 0 v' /\ (forall a, a < 0 \/ k <= a -> v' a = v a) | None => use_small = true end.
Proof.
  intros us k n ints reals v H L B. unfold kofn. destruct (Z.eqb_spec k 0) as [->|K]; [split; [reflexivity|]; split; [split; intros; lia|reflexivity]|]. destruct us.
  - destruct (small (Z.to_nat n) k n 0 ints v) as [[v' rest]|] eqn:E; [|reflexivity]. split; [reflexivity|]. exact (C116_small k n 0 ints v v' rest ltac:(lia) E).
  - destruct (C116_large_sample k n reals v H L B) as (v' & E & S). rewrite E. split; [reflexivity|exact S].
Qed.
Print Assumptions C116_kofn.

(* but the distribution, up to the number after 1, may give 1 itself; a number that has to be taken is then left, and fewer than k are written *)
Theorem C116_exactly_k_refuted : exists k n xs v v', 1 <= k <= n /\ Z.of_nat (length xs) = n /\ (forall x, In x xs -> (0 <= x <= 1)%Q) /\ kofn false k n [] xs v = Some (k - 1, v') /\ v' (k - 1) = v (k - 1).
Proof.
  exists 2, 3, [9 # 10; 1; 0]%Q, (fun _ => -7). eexists. split; [lia|]. split; [reflexivity|]. split; [|split; [vm_compute; reflexivity|reflexivity]].
  intros x [<-|[<-|[<-|[]]]]; split; unfold Qle; cbn; lia.
Qed.
Print Assumptions C116_exactly_k_refuted.

Example C116_ex_small : exists v', small 10 4 10 0 [2; 8; 3; 0; 1; 0; 2; 0; 0; 0; 0; 2; 3] (fun _ => 0) = Some (v', []) /\ map v' [0; 1; 2; 3] = [0; 1; 4; 8].
Proof. eexists. split; [vm_compute; reflexivity|vm_compute; reflexivity]. Qed.
Example C116_ex_large : exists v', large 5 0 5 2 0 [1 # 2; 1 # 3; 9 # 10; 1 # 4; 0]%Q (fun _ => 0) = Some (2, v', []) /\ map v' [0; 1] = [1; 3].
Proof. eexists. split; [vm_compute; reflexivity|reflexivity]. Qed.
Example C116_ex_odds : (odds 2 4 [false; true; true; false] == 1 # 6)%Q.
Proof. reflexivity. Qed.
