(* C60: row-aligned matrix allocation never overlaps elements. *)
From Coq Require Import ZArith List Bool Lia.
From Verif Require Import Model.Aligned Spec.Aligned Proofs.Aligned.
Import ListNotations.
Open Scope Z_scope.

(* Every element lies inside the allocated block, for every list of dimensions whose padded size can be counted in 64 bits. *)
Theorem C60_inside : forall (single : bool) n e sizes idx,
  power_of_two n -> 0 < e -> needed n (if single then up n e else e) sizes < 18446744073709551616 ->
  sizes <> [] -> index_of sizes idx ->
  0 <= offset (steps single n e sizes) idx /\ offset (steps single n e sizes) idx + e <= block single n e sizes.
Proof. intros; apply aligned_inside; auto. Qed.
Print Assumptions C60_inside.

(* Two different elements never share a byte. *)
Theorem C60_disjoint : forall (single : bool) n e sizes a b,
  power_of_two n -> 0 < e -> needed n (if single then up n e else e) sizes < 18446744073709551616 ->
  index_of sizes a -> index_of sizes b -> a <> b ->
  offset (steps single n e sizes) a + e <= offset (steps single n e sizes) b \/
  offset (steps single n e sizes) b + e <= offset (steps single n e sizes) a.
Proof.
  intros single n e sizes a b P He B Fa Fb N.
  destruct (precedes_total sizes a b Fa Fb N); [ left | right ]; apply aligned_order; auto.
Qed.
Print Assumptions C60_disjoint.

(* Elements follow each other in row-major order. *)
Theorem C60_order : forall (single : bool) n e sizes a b,
  power_of_two n -> 0 < e -> needed n (if single then up n e else e) sizes < 18446744073709551616 ->
  index_of sizes a -> index_of sizes b -> precedes a b ->
  offset (steps single n e sizes) a + e <= offset (steps single n e sizes) b.
Proof. intros; apply aligned_order; auto. Qed.
Print Assumptions C60_order.

(* Every row starts at an aligned address if the block does. *)
Theorem C60_rows : forall (single : bool) n e sizes base idx,
  power_of_two n -> 0 < e -> needed n (if single then up n e else e) sizes < 18446744073709551616 ->
  base mod n = 0 -> index_of sizes (idx ++ [0]) ->
  (base + offset (steps single n e sizes) (idx ++ [0])) mod n = 0.
Proof. intros; apply aligned_row; auto. Qed.
Print Assumptions C60_rows.

(* With bAlignSingleElem every element does. *)
Theorem C60_elements : forall n e sizes base idx,
  power_of_two n -> 0 < e -> needed n (up n e) sizes < 18446744073709551616 ->
  base mod n = 0 -> index_of sizes idx ->
  (base + offset (steps true n e sizes) idx) mod n = 0.
Proof. exact aligned_elements. Qed.
Print Assumptions C60_elements.

(* When rows already have an aligned length the block has no padding at all. *)
Theorem C60_no_padding : forall n e pre last,
  power_of_two n -> 0 < e -> 0 < last -> Forall (fun s => 0 < s) pre -> (last * e) mod n = 0 ->
  fold_right Z.mul (last * e) pre < 18446744073709551616 ->
  block false n e (pre ++ [last]) = fold_right Z.mul (last * e) pre.
Proof. exact aligned_rows_plain. Qed.
Print Assumptions C60_no_padding.

(* Without the 64-bit condition the claim fails: nothing guards the products against wrapping around, and elements fall outside of the
   (here empty) block. *)
Theorem C60_overflow_refuted : exists sizes idx,
  Forall (fun s => 0 < s < 2147483648) sizes /\ index_of sizes idx /\
  block false 16 1 sizes < offset (steps false 16 1 sizes) idx + 1.
Proof.
  exists [1073741824; 1073741824; 16], [0; 0; 0]. split; [ repeat constructor; lia | split; [ repeat constructor; lia | ] ].
  vm_compute. reflexivity.
Qed.
Print Assumptions C60_overflow_refuted.

(* Any positive alignment compiles, but one that is no power of two does not align rows. *)
Theorem C60_any_alignment_refuted : exists n sizes idx,
  0 < n /\ index_of sizes (idx ++ [0]) /\ (offset (steps false n 1 sizes) (idx ++ [0])) mod n <> 0.
Proof.
  exists 24, [2; 8], [1]. split; [ lia | split; [ repeat constructor; lia | ] ]. vm_compute. discriminate.
Qed.
Print Assumptions C60_any_alignment_refuted.

(* Data given by the user is used with the padded steps even when it holds packed rows: elements fall outside of it. *)
Theorem C60_user_data_refuted : exists sizes idx,
  index_of sizes idx /\
  block_with_data (fold_right Z.mul 1 sizes) false 16 1 sizes < offset (steps false 16 1 sizes) idx + 1.
Proof. exists [2; 3], [1; 0]. split; [ repeat constructor; lia | ]. vm_compute. reflexivity. Qed.
Print Assumptions C60_user_data_refuted.

(* 5 rows of 7 elements of 3 bytes aligned on 16 bytes: rows are 32 bytes apart. *)
Example C60_ex :
  power_of_two 16 /\ needed 16 3 [5; 7] < 18446744073709551616 /\
  steps false 16 3 [5; 7] = [32; 3] /\ steps true 16 3 [5; 7] = [112; 16] /\ block false 16 3 [5; 7] = 160 /\
  index_of [5; 7] ([4] ++ [0]) /\ offset (steps false 16 3 [5; 7]) [4; 6] = 146 /\ precedes [3; 6] [4; 0].
Proof.
  split; [ exists 4; split; [ lia | reflexivity ] | ].
  do 4 (split; [ vm_compute; reflexivity | ]). split; [ repeat constructor; lia | ].
  split; [ vm_compute; reflexivity | ]. constructor. lia.
Qed.
