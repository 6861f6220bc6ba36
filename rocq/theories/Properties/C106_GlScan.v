(* C106: prefix sums of rows and transposition in compute shaders. *)
From Coq Require Import ZArith Reals List Bool Lia Permutation.
From Verif Require Import Lib.Grid Model.Kernels Model.GlScan Spec.GlScan Proofs.Kernels Proofs.GlScan.
Import ListNotations.
Open Scope Z_scope.

(* However the invocations of a group of a power of two are scheduled, element i of the shared array ends as the sum of those before it. *)
Theorem C106_scan k row m m' : kernel (Z.to_nat (invocations (2 ^ Z.of_nat (S k)))) (scan (2 ^ Z.of_nat (S k)) row) m m' ->
  forall i, 0 <= i < 2 ^ Z.of_nat (S k) -> m' (tmp i) = IZR (sum_before row i).
Proof. exact (scan_sums k row m m'). Qed.
Print Assumptions C106_scan.
Example C106_ex_scan : exists m', kernel (Z.to_nat (invocations (2 ^ Z.of_nat 2))) (scan (2 ^ Z.of_nat 2) (fun i => 10 + i)) (fun _ => 7%R) m' /\ m' (tmp 3) = 33%R.
Proof.
  destruct (kernel_exists (Z.to_nat (invocations (2 ^ Z.of_nat 2))) (scan (2 ^ Z.of_nat 2) (fun i => 10 + i)) (fun _ => 7%R)) as (m' & K). exists m'. split; [ exact K |].
  rewrite (C106_scan 1 _ _ _ K 3) by (cbn; lia). reflexivity.
Qed.

(* The shared array is only used within its bounds exactly when its size is a power of two; other sizes pass the assertions. *)
Theorem C106_sizes n row : 2 <= n -> (in_bounds n (scan n row) <-> exists k, n = 2 ^ Z.of_nat (S k)).
Proof. exact (sizes n row). Qed.
Print Assumptions C106_sizes.
Theorem C106_sizes_refuted : exists n, 1 < n /\ (n mod 2 = 0 /\ invocations n = n / 2 \/ n mod 2 = 1 /\ invocations n - 1 = n / 2) /\ forall row, ~ in_bounds n (scan n row).
Proof.
  exists 6. split; [ lia |]. split; [ left; split; reflexivity |]. intros row B. apply (C106_sizes 6 row) in B; [| lia ]. destruct B as (k & E).
  rewrite pow_S in E. assert (3 = 2 ^ Z.of_nat k) by lia. destruct k; [ discriminate |]. rewrite pow_S in H. lia.
Qed.
Print Assumptions C106_sizes_refuted.

(* Each pixel becomes the sum of the pixels before it in its block, for as many blocks as there are groups. *)
Theorem C106_rows k groups binary im out x y : prefix_sum (2 ^ Z.of_nat (S k)) groups binary im out -> 0 <= x < cols im -> x < groups * 2 ^ Z.of_nat (S k) -> 0 <= y < rows im ->
  texel out x y = sum_between (fun c => if binary then texel im c y mod 2 else texel im c y) (x / 2 ^ Z.of_nat (S k) * 2 ^ Z.of_nat (S k)) x.
Proof. exact (rows_sums k groups binary im out x y). Qed.
Print Assumptions C106_rows.
Theorem C106_exists k groups binary im : exists out, prefix_sum (2 ^ Z.of_nat (S k)) groups binary im out.
Proof. exact (scan_exists k groups binary im). Qed.
Print Assumptions C106_exists.

(* With the number of groups in the comment, images wider than two blocks keep columns that are never written: whatever was there stays. *)
Theorem C106_groups_refuted : forall k im v, 2 * 2 ^ Z.of_nat (S k) < cols im -> 0 < rows im ->
  exists out, prefix_sum (2 ^ Z.of_nat (S k)) (documented_groups (cols im) (2 ^ Z.of_nat (S k))) false im out /\ texel out (cols im - 1) 0 = v.
Proof.
  intros k im v C R. destruct (C106_exists k (documented_groups (cols im) (2 ^ Z.of_nat (S k))) false im) as (out & P).
  eexists. split.
  - apply (unwritten _ _ _ _ out (cols im - 1) 0 v (pow_pos _) P).
    + rewrite invocations_pow, pow_S. ring.
    + pose proof (few_groups (cols im) _ (pow_pos (S k)) C). lia.
  - cbn [texel]. rewrite !Z.eqb_refl. reflexivity.
Qed.
Print Assumptions C106_groups_refuted.
Example C106_ex_groups : exists im, 2 * 2 ^ Z.of_nat 1 < cols im /\ 0 < rows im.
Proof. exists {| cols := 5; rows := 1; texel := fun _ _ => 1 |}. cbn. lia. Qed.

(* Merging blocks of such sums leaves out the last pixel of every earlier block. *)
Theorem C106_merged k groups binary im mid out x y : prefix_sum (2 ^ Z.of_nat (S k)) groups binary im mid -> cols im <= groups * 2 ^ Z.of_nat (S k) -> block_merge (2 ^ Z.of_nat (S k)) mid out ->
  0 <= x < cols im -> 0 <= y < rows im ->
  let row := fun c => if binary then texel im c y mod 2 else texel im c y in
  texel out x y = sum_before row x - block_ends (2 ^ Z.of_nat (S k)) row (x / 2 ^ Z.of_nat (S k)).
Proof. exact (merged_sums k groups binary im mid out x y). Qed.
Print Assumptions C106_merged.
Theorem C106_merged_refuted : exists k groups im mid out x y, prefix_sum (2 ^ Z.of_nat (S k)) groups false im mid /\ cols im <= groups * 2 ^ Z.of_nat (S k) /\ block_merge (2 ^ Z.of_nat (S k)) mid out /\
  0 <= x < cols im /\ 0 <= y < rows im /\ sum_before (fun c => texel im c y) x = 3 /\ sum_before (fun c => texel im c y) (x + 1) = 4 /\ texel out x y = 2.
Proof.
  set (im := {| cols := 4; rows := 1; texel := fun _ _ => 1 |}). destruct (C106_exists 0 2 false im) as (mid & P).
  exists 0%nat, 2, im, mid, (fold_left (merge_row 2) (zrange 0 (rows mid)) mid), 3, 0.
  assert (M : block_merge (2 ^ Z.of_nat 1) mid (fold_left (merge_row 2) (zrange 0 (rows mid)) mid)) by (exists (zrange 0 (rows mid)); split; [ apply Permutation_refl | reflexivity ]).
  split; [ exact P |]. split; [ cbn; lia |]. split; [ exact M |]. split; [ cbn; lia |]. split; [ cbn; lia |]. split; [ reflexivity |]. split; [ reflexivity |].
  rewrite (C106_merged 0 2 false im mid _ 3 0 P); [ reflexivity | cbn; lia | exact M | cbn; lia | cbn; lia ].
Qed.
Print Assumptions C106_merged_refuted.

(* Merging is right for sums that include the pixel itself. *)
Theorem C106_merge n im out row y x : 0 < n -> 0 < cols im -> block_merge n im out -> 0 <= y < rows im -> (forall x, 0 <= x < cols im -> texel im x y = sum_between row (x / n * n) (x + 1)) ->
  0 <= x < cols im -> texel out x y = sum_before row (x + 1).
Proof. exact (merged_inclusive n im out row y x). Qed.
Print Assumptions C106_merge.
Example C106_ex_merge : exists im out, block_merge 2 im out /\ (forall x, 0 <= x < cols im -> texel im x 0 = sum_between (fun _ => 1) (x / 2 * 2) (x + 1)) /\ 0 < cols im /\ 0 < rows im.
Proof.
  set (im := {| cols := 3; rows := 1; texel := fun x _ => x mod 2 + 1 |}). exists im, (fold_left (merge_row 2) (zrange 0 (rows im)) im). split; [ exists (zrange 0 (rows im)); split; [ apply Permutation_refl | reflexivity ] |].
  split; [| cbn; lia ]. cbn [im cols texel]. intros x X. assert (x = 0 \/ x = 1 \/ x = 2) as [->|[->| ->]] by lia; reflexivity.
Qed.

(* Whatever the size of the blocks and the order of the invocations, transposing writes every pixel of the output. *)
Theorem C106_transpose n im before after : 0 < n -> 0 <= cols im -> 0 <= rows im -> cols before = rows im -> rows before = cols im -> transpose n im before after ->
  cols after = rows im /\ rows after = cols im /\ forall x y, 0 <= x < cols im -> 0 <= y < rows im -> texel after y x = texel im x y.
Proof. exact (transposed n im before after). Qed.
Print Assumptions C106_transpose.
Example C106_ex_transpose : exists im before after, cols before = rows im /\ rows before = cols im /\ transpose 2 im before after /\ cols im = 3 /\ rows im = 1 /\ texel after 0 2 = 2.
Proof.
  set (im := {| cols := 3; rows := 1; texel := fun x _ => x |}). set (before := {| cols := 1; rows := 3; texel := fun _ _ => 0 |}).
  exists im, before. eexists. split; [ reflexivity |]. split; [ reflexivity |]. split; [ eexists; split; [ apply Permutation_refl | reflexivity ] |]. split; [ reflexivity |]. split; [ reflexivity |]. reflexivity.
Qed.
