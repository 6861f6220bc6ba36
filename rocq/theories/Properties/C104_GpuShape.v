From Coq Require Import ZArith QArith Reals List Bool Lia Lra Arith.
From Verif Require Import Lib.Grid Model.ShapeContext Model.KeyPoints Model.Kernels Model.GpuAffinity Model.GpuShape Spec.ShapeContext Spec.GpuAffinity Spec.GpuShape Proofs.ShapeContext Proofs.KeyPoints Proofs.Kernels Proofs.GpuAffinity Proofs.GpuShape.
Import ListNotations.
Open Scope nat_scope.

(* without normalization, for every number of threads per block and in whatever order they run, the graphics card gives the map that the processor gives *)
Theorem C104_same_counts : forall cf s cs n size nonzero res m, gpu_map cf s n size nonzero false res -> 0 < n ->
  Forall (fun c => match c with Detect _ kp => kp <> [] | _ => True end) cs -> snd (dense cf (run cf cs) s) = Some m ->
  forall y x i, (0 <= y < rows s)%Z -> (0 <= x < cols s)%Z -> i < size -> res (y, x) i = Some (cpu_desc size nonzero false (m (y, x)) i).
Proof.
  intros cf s cs n size nonzero res m G N O D y x i Y X I. destruct (dense_ok cf cs s O) as (m' & E & S). rewrite E in D. injection D as <-.
  rewrite (gpu_plain _ _ _ _ _ N (G y x Y X) i I). f_equal. unfold cpu_desc. rewrite counted_share, S by (apply within_spec; cbn; lia). reflexivity.
Qed.
Print Assumptions C104_same_counts.

(* with normalization, for up to 32 bins and the default block of 32 threads, too, unless a descriptor is zero *)
Theorem C104_same : forall cf s cs size nonzero res m, gpu_map cf s 32 size nonzero true res -> 0 < size <= 32 -> (forall dy dx, (lut cf dy dx < Z.of_nat size)%Z) ->
  Forall (fun c => match c with Detect _ kp => kp <> [] | _ => True end) cs -> snd (dense cf (run cf cs) s) = Some m ->
  forall y x i, (0 <= y < rows s)%Z -> (0 <= x < cols s)%Z -> i < size -> (nonzero = true \/ exists j, j < size /\ m (y, x) (Z.of_nat j) <> 0%Z) ->
  res (y, x) i = Some (cpu_desc size nonzero true (m (y, x)) i).
Proof.
  intros cf s cs size nonzero res m G (P & Q) F O D y x i Y X I N. destruct (dense_ok cf cs s O) as (m' & E & S). rewrite E in D. injection D as <-.
  assert (S' : forall b, m' (y, x) b = share cf s (y, x) b) by (intro; apply S, within_spec; cbn; lia).
  rewrite (gpu_shuffled size _ _ _ P Q (votes_fit cf s (y, x) size F) (G y x Y X) i I). rewrite (cpu_desc_ext size nonzero true (m' (y, x)) (share cf s (y, x)) i) by auto.
  apply same_direction; [ exact P | exact I |]. destruct N as [N|(j & J & N)]; [ now left | right; exists j; now rewrite <- S' ].
Qed.
Print Assumptions C104_same.

(* a descriptor without votes becomes NaN on the graphics card, whatever the order; on the processor it becomes the even descriptor *)
Theorem C104_blank_refuted : exists cf s m, snd (dense cf (run cf []) s) = Some m /\ forall size, 0 < size <= 32 -> (forall dy dx, (lut cf dy dx < Z.of_nat size)%Z) /\
  (exists res, gpu_map cf s 32 size false true res) /\ exists y x, (0 <= y < rows s)%Z /\ (0 <= x < cols s)%Z /\ forall i, i < size ->
  cpu_desc size false true (m (y, x)) i = sqrt (1 / INR size) /\ forall res, gpu_map cf s 32 size false true res -> res (y, x) i = None.
Proof.
  destruct (dense_ok (pair_config 0) [] {| rows := 3; cols := 3; mask := fun _ _ => false; contour := [] |}) as (m & E & S); [ constructor |].
  exists (pair_config 0), {| rows := 3; cols := 3; mask := fun _ _ => false; contour := [] |}, m. split; [ exact E |]. intros size (P & Q). split; [ exact (fun dy dx => proj2 (pair_lut 0 size P P dy dx)) |].
  split; [ apply gpu_map_exists |]. exists 1%Z, 1%Z. cbn [rows cols]. split; [ lia |]. split; [ lia |]. intros i I. split.
  - apply empty_cpu. intros j _. rewrite S by reflexivity. reflexivity.
  - intros res G. rewrite (gpu_shuffled size _ _ _ P Q (votes_fit _ _ (1, 1)%Z size (fun dy dx => proj2 (pair_lut 0 size P P dy dx))) (G 1%Z 1%Z ltac:(cbn; lia) ltac:(cbn; lia)) i I).
    apply empty_direction; [ exact I |]. intros. reflexivity.
Qed.
Print Assumptions C104_blank_refuted.

(* with more than 32 bins and 32 threads the sum of squares has no barriers. If the threads go in lockstep the result is right *)
Theorem C104_lockstep : forall cf s cs size nonzero res m y x, 32 < size -> (forall dy dx, (lut cf dy dx < Z.of_nat size)%Z) ->
  Forall (fun c => match c with Detect _ kp => kp <> [] | _ => True end) cs -> snd (dense cf (run cf cs) s) = Some m -> (0 <= y < rows s)%Z -> (0 <= x < cols s)%Z ->
  lockstep_desc size (first_value size nonzero) (kernel_votes cf s (y, x)) res -> (nonzero = true \/ exists j, j < size /\ m (y, x) (Z.of_nat j) <> 0%Z) ->
  forall i, i < size -> res i = Some (cpu_desc size nonzero true (m (y, x)) i).
Proof.
  intros cf s cs size nonzero res m y x P F O D Y X G N i I. destruct (dense_ok cf cs s O) as (m' & E & S). rewrite E in D. injection D as <-.
  assert (S' : forall b, m' (y, x) b = share cf s (y, x) b) by (intro; apply S, within_spec; cbn; lia).
  rewrite (gpu_lockstep size _ _ _ P (votes_fit cf s (y, x) size F) G i I). rewrite (cpu_desc_ext size nonzero true (m' (y, x)) (share cf s (y, x)) i) by auto.
  apply same_direction; [ lia | exact I |]. destruct N as [N|(j & J & N)]; [ now left | right; exists j; now rewrite <- S' ].
Qed.
Print Assumptions C104_lockstep.

(* which is one of the orders that are allowed, and it always gets to the end *)
Theorem C104_lockstep_runs : forall size init votes, 32 < size -> exists res, lockstep_desc size init votes res /\ gpu_desc 32 size init votes true res.
Proof. intros size init votes P. destruct (lockstep_exists size init votes P) as (res & H). exists res. split; [ exact H | now apply lockstep_is_a_run ]. Qed.
Print Assumptions C104_lockstep_runs.

(* whenever there are more bins than threads there are orders with another result: 1 where the processor has the root of one half. The default extractor has 60 bins and 32 threads *)
Theorem C104_order_refuted : forall n size, 1 < n -> n < size -> exists cf s m res, (forall dy dx, (-1 <= lut cf dy dx < Z.of_nat size)%Z) /\ snd (dense cf (run cf []) s) = Some m /\ gpu_map cf s n size false true res /\
  exists y x, (0 <= y < rows s)%Z /\ (0 <= x < cols s)%Z /\ res (y, x) 0 = Some 1%R /\ cpu_desc size false true (m (y, x)) 0 = sqrt (1 / 2).
Proof.
  intros n size N P. assert (L : (lut_size n size =? 32) && (n =? 32) = false). { apply andb_false_iff. destruct (Nat.eqb_spec n 32) as [->|]; [| now right ]. left. apply Nat.eqb_neq. assert (H := lut_size_ge 32 size ltac:(lia)). lia. }
  destruct (races_long n size N P L) as (r & G & V). destruct (dense_ok (pair_config 1) [] pair_shape) as (m & E & S); [ constructor |].
  rewrite <- pair_kernel in G. destruct (gpu_map_with (pair_config 1) pair_shape n size false true 1 1 r G) as (res & M & Q).
  exists (pair_config 1), pair_shape, m, res. split; [ intros; apply pair_lut; lia |]. split; [ exact E |]. split; [ exact M |]. exists 1%Z, 1%Z. cbn [rows cols pair_shape]. split; [ lia |]. split; [ lia |]. split; [ now rewrite Q |].
  rewrite (cpu_desc_ext size false true (m (1, 1)%Z) (share (pair_config 1) pair_shape (1, 1)%Z) 0) by (try lia; intros; now apply S). apply pair_cpu; lia.
Qed.
Print Assumptions C104_order_refuted.

(* so do blocks of 64, 128, 256... threads with a bin for more than half of them: the first barrier comes too late *)
Theorem C104_barrier_refuted : forall e size, 5 <= e -> 2 ^ e < size <= 2 ^ S e -> exists cf s m res, (forall dy dx, (-1 <= lut cf dy dx < Z.of_nat size)%Z) /\ snd (dense cf (run cf []) s) = Some m /\ gpu_map cf s (2 ^ S e) size false true res /\
  exists y x, (0 <= y < rows s)%Z /\ (0 <= x < cols s)%Z /\ res (y, x) 0 = Some 1%R /\ cpu_desc size false true (m (y, x)) 0 = sqrt (1 / 2).
Proof.
  intros e size N P. assert (B : 0 < 2 ^ e) by (assert (H := Nat.pow_nonzero 2 e); lia). destruct (races_single (2 ^ S e) size e eq_refl N P) as (r & G & V). set (b := 2 ^ e) in *.
  destruct (dense_ok (pair_config b) [] pair_shape) as (m & E & S0); [ constructor |].
  rewrite <- pair_kernel in G. destruct (gpu_map_with (pair_config b) pair_shape (2 ^ S e) size false true 1 1 r G) as (res & M & Q).
  exists (pair_config b), pair_shape, m, res. split; [ intros; apply pair_lut; lia |]. split; [ exact E |]. split; [ exact M |]. exists 1%Z, 1%Z. cbn [rows cols pair_shape]. split; [ lia |]. split; [ lia |]. split; [ now rewrite Q |].
  rewrite (cpu_desc_ext size false true (m (1, 1)%Z) (share (pair_config b) pair_shape (1, 1)%Z) 0) by (try lia; intros; now apply S0). apply pair_cpu; lia.
Qed.
Print Assumptions C104_barrier_refuted.

(* compute2 with keypoints: on the graphics card the other pixels get descriptors as well *)
Theorem C104_keypoints_refuted : exists cf s kp m res y x, snd (keyed cf (run cf []) s kp) = Some (Some m) /\ gpu_map cf s 32 2 false false res /\ (0 <= y < rows s)%Z /\ (0 <= x < cols s)%Z /\ ~ In (y, x) kp /\
  cpu_desc 2 false false (m (y, x)) 0 = 0%R /\ res (y, x) 0 = Some 1%R.
Proof.
  destruct (gpu_map_exists (pair_config 1) pair_shape 32 2 false false) as (res & G).
  exists (pair_config 1), pair_shape, [(0, 0)]%Z. eexists. exists res, 1%Z, 1%Z. split; [ reflexivity |]. split; [ exact G |]. split; [ cbn; lia |]. split; [ cbn; lia |]. split; [ intros [H|[]]; discriminate |]. split.
  - unfold cpu_desc, first_value. cbn. lra.
  - rewrite (gpu_plain 32 2 _ _ _ ltac:(lia) (G 1%Z 1%Z ltac:(cbn; lia) ltac:(cbn; lia)) 0 ltac:(lia)). rewrite pair_kernel. cbn. f_equal. lra.
Qed.
Print Assumptions C104_keypoints_refuted.

(* keypoints on pixels: both roundings are those of the plain model *)
Theorem C104_pixels : forall cf r c pt, lookup_between cf nearest (at_pixel r c) pt = bin cf (r, c) pt /\ lookup_between cf away (at_pixel r c) pt = bin cf (r, c) pt.
Proof. exact lookup_pixel. Qed.
Print Assumptions C104_pixels.

(* between pixels the kernel looks up the same bins as the processor unless some distance to a contour point ends in one half *)
Theorem C104_rounding : forall cf key pt, (forall z, ~ (inject_Z (fst pt) - ky key == inject_Z z + (1 # 2))%Q /\ ~ (inject_Z (snd pt) - kx key == inject_Z z + (1 # 2))%Q) -> lookup_between cf nearest key pt = lookup_between cf away key pt.
Proof. intros cf key pt H. unfold lookup_between. rewrite !roundings_agree by (intro z; apply (H z)). reflexivity. Qed.
Print Assumptions C104_rounding.

(* distances that end in one half are rounded to even there, but away from zero by the processor *)
Theorem C104_rounding_refuted : exists cf key pt, 0 < 2 /\ (forall dy dx, (-1 <= lut cf dy dx < 2)%Z) /\ lookup_between cf nearest key pt = None /\ lookup_between cf away key pt = Some 1%Z.
Proof.
  exists (pair_config 1), {| kx := 1 # 2; ky := 0 |}, (0, 1)%Z. split; [ lia |]. split; [ exact (pair_lut 1 2 ltac:(lia) ltac:(lia)) |]. split; reflexivity.
Qed.
Print Assumptions C104_rounding_refuted.

(* with the default block no thread leaves the shared memory that was asked for *)
Theorem C104_shared : forall size init cf s key norm p t i k, 0 < size -> (forall dy dx, (lut cf dy dx < Z.of_nat size)%Z) ->
  In p (histogram 32 size init (kernel_votes cf s key) ++ if norm : bool then normalization 32 size else []) -> t < 32 -> In i (p t) -> mentions i (sh k) -> k < shared_given size.
Proof. intros size init cf s key norm p t i k P F. apply shared_fits; [ exact P | now apply votes_fit ]. Qed.
Print Assumptions C104_shared.

(* larger blocks do, even without normalization, if there are up to 32 bins; blocks of 64 threads do with it *)
Theorem C104_shared_refuted : forall n size init votes, 0 < size <= 32 ->
  (64 < n -> exists p t i k, In p (histogram n size init votes) /\ t < n /\ In i (p t) /\ mentions i (sh k) /\ shared_given size <= k) /\
  (exists p t i k, In p (normalization 64 size) /\ t < 64 /\ In i (p t) /\ mentions i (sh k) /\ shared_given size <= k).
Proof. intros n size init votes (P & Q). split; [ intro N; now apply shared_outside | now apply shared_outside_norm ]. Qed.
Print Assumptions C104_shared_refuted.

Example C104_ex_same : exists res m, gpu_map (pair_config 1) pair_shape 32 2 false true res /\ snd (dense (pair_config 1) (run (pair_config 1) []) pair_shape) = Some m /\ res (1, 1)%Z 0 = Some (sqrt (1 / 2)).
Proof.
  destruct (gpu_map_exists (pair_config 1) pair_shape 32 2 false true) as (res & G). destruct (dense_ok (pair_config 1) [] pair_shape) as (m & E & S); [ constructor |].
  exists res, m. split; [ exact G |]. split; [ exact E |]. assert (D : forall j, m (1, 1)%Z (Z.of_nat j) = share (pair_config 1) pair_shape (1, 1)%Z (Z.of_nat j)) by (intro; now apply S).
  rewrite (C104_same _ _ [] 2 false res m G ltac:(lia) (fun dy dx => proj2 (pair_lut 1 2 ltac:(lia) ltac:(lia) dy dx)) (Forall_nil _) E 1%Z 1%Z 0 ltac:(cbn; lia) ltac:(cbn; lia) ltac:(lia)).
  - rewrite (cpu_desc_ext 2 false true (m (1, 1)%Z) (share (pair_config 1) pair_shape (1, 1)%Z) 0) by (try lia; auto). now rewrite pair_cpu by lia.
  - right. exists 0. split; [ lia |]. rewrite D. rewrite pair_share by lia. discriminate.
Qed.
Example C104_ex_default : exists size, size = 12 * 5 /\ 1 < 32 < size. Proof. exists 60. lia. Qed.
Example C104_ex_rounding : forall z, ~ (inject_Z 3 - (1 # 3) == inject_Z z + (1 # 2))%Q. Proof. intros z H. unfold Qeq in H. cbn in H. lia. Qed.
