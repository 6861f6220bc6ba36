From Coq Require Import ZArith List Bool Ascii Lia.
From Verif Require Import Model.GlBuffers Spec.GlBuffers Proofs.GlBuffers.
Import ListNotations.
Open Scope Z_scope.

(* a texture made for matrices of a type is read back as this type, but for three bytes per pixel; the numbers of channels agree; and it is integral if asked for, unless of floats *)
Theorem C126_formats : forall d c b f, format_of d c b = Some f -> ((d, c) <> (U8, Three) -> type_of f = (d, c)) /\ channels_of f = snd (type_of f) /\ (is_integral f = true <-> b = true /\ d <> F32).
Proof. intros [] [] [] f E; cbn in E; try discriminate E; injection E as <-; (split; [intros H; try reflexivity; congruence|]); (split; [reflexivity|]); cbn; split; intros H; try discriminate H; try (split; [reflexivity|discriminate]); destruct H as [H K]; congruence. Qed.
Print Assumptions C126_formats.
(* normalized and integral formats are each other's inverses where both exist, keep the type of matrices, and are of the kind named, or floats *)
Theorem C126_inverse : forall f g, (normalized f = Some g -> is_integral g = false /\ type_of g = type_of f /\ (is_integral f = true -> integral_of g = Some f)) /\ (integral_of f = Some g -> is_integral g = true /\ type_of g = type_of f /\ (is_integral f = false -> normalized g = Some f)).
Proof. intros f g. split; intros E; destruct f; cbn in E; try discriminate E; injection E as <-; repeat split; intros H; try discriminate H; reflexivity. Qed.
Print Assumptions C126_inverse.
(* but matrices with three bytes per pixel come back with four *)
Theorem C126_formats_refuted : exists d c b f, format_of d c b = Some f /\ type_of f <> (d, c).
Proof. exists U8, Three, true, RGBA8UI. split; [reflexivity|discriminate]. Qed.
Print Assumptions C126_formats_refuted.

(* images are copied from a buffer that holds them exactly if no offset overflows: then each has its size, and image k has the k-th part of the buffer *)
Theorem C126_images : forall count w h c d buf, 0 < w -> 0 < h -> (0 < count)%nat -> let size := h * w * pixel d c in Z.of_nat (length buf) = Z.of_nat count * size ->
  ((exists l, deep_copies count w h c d buf = Some l) <-> size < 2 ^ 31 /\ (Z.of_nat count - 1) * size < 2 ^ 31) /\
  forall l, deep_copies count w h c d buf = Some l -> length l = count /\ forall k j, 0 <= k < Z.of_nat count -> 0 <= j < size -> Z.of_nat (length (nth (Z.to_nat k) l [])) = size /\ nth (Z.to_nat j) (nth (Z.to_nat k) l []) 0 = nth (Z.to_nat (k * size + j)) buf 0.
Proof.
  intros count w h c d buf W H N size' L. assert (Q : size' = h * w * number c * bytes_of d) by (unfold size'; destruct c, d; cbn [pixel number bytes_of]; lia). revert L. rewrite Q. clear Q size'. set (size := h * w * number c * bytes_of d). intros L. assert (A : 0 < h * w) by nia. assert (C : 1 <= number c) by (destruct c; cbn; lia). assert (B : 1 <= bytes_of d) by (destruct d; cbn; lia).
  assert (S1 : h * w <= h * w * number c) by nia. assert (S2 : h * w * number c <= size) by (unfold size; nia).
  assert (E : forall l, deep_copies count w h c d buf = Some l -> size < 2 ^ 31 /\ copies size 0 count buf = Some l).
  { intros l E. unfold deep_copies in E. destruct (int (h * w)) as [a|] eqn:X; [|discriminate]. apply int_inv in X. destruct X as [-> _]. destruct (int (h * w * number c)) as [a|] eqn:X; [|discriminate]. apply int_inv in X. destruct X as [-> _]. destruct (int (h * w * number c * bytes_of d)) as [a|] eqn:X; [|discriminate]. apply int_inv in X. destruct X as [-> X]. split; [exact X|exact E]. }
  split.
  - split.
    + intros (l & X). apply E in X. destruct X as [X Y]. split; [exact X|]. apply copies_inv in Y. destruct Y as (_ & _ & [Y|Y]); [lia|]. replace (0 + Z.of_nat count - 1) with (Z.of_nat count - 1) in Y by lia. exact Y.
    + intros [X Y]. unfold deep_copies. rewrite int_some by lia. rewrite int_some by lia. rewrite int_some by (fold size; lia). fold size. apply copies_some; [lia|lia|]. left. replace (0 + Z.of_nat count - 1) with (Z.of_nat count - 1) by lia. exact Y.
  - intros l X. apply E in X. destruct X as [_ X]. apply copies_inv in X. destruct X as (X & Y & _). split; [exact X|]. intros k j K J. assert (k * size + size <= Z.of_nat count * size) by nia. assert (0 <= k * size) by nia. rewrite (Y (Z.to_nat k)) by lia. rewrite Z2Nat.id by lia. rewrite Z.add_0_l. split; [apply slice_length; lia|apply slice_nth; lia].
Qed.
Print Assumptions C126_images.
(* so nine images of 4096x4096 with four floats each cannot be copied, though each of them can *)
Theorem C126_images_refuted : exists count w h c d, h * w * pixel d c < 2 ^ 31 /\ forall buf, deep_copies count w h c d buf = None.
Proof. exists 9%nat, 4096, 4096, Four, F32. split; [reflexivity|]. intros buf. reflexivity. Qed.
Print Assumptions C126_images_refuted.

(* the listing has the lines of the source, each after its number; only an empty source has no line *)
Theorem C126_listing : forall label s ls, (forall n, ~ In nl (label n)) -> s <> [] -> lines_of ls s -> exists ks, lines_of ks (add_numbers label s) /\ labelled label ls ks.
Proof.
  intros label s ls N E L. destruct (number_lines label N ls s L 1 (label 1) (N 1)) as (l & r & -> & M). unfold add_numbers. destruct s as [|a s]; [congruence|]. eexists. split; [exact M|]. split.
  - cbn [length]. rewrite map_length, combine_length, seq_length. lia.
  - intros [|i] I; cbn [nth]; [reflexivity|]. cbn [length] in I. rewrite nth_labels by lia. f_equal. f_equal. lia.
Qed.
Print Assumptions C126_listing.

(* preallocation ends, keeps what the file has, and adds zeros up to the size asked for, with any limit of a write; larger files are kept *)
Theorem C126_prealloc : forall cap old n, match cap with None => True | Some c => 0 < c end -> 0 <= n < 2 ^ 63 -> exists file, prealloc cap old n = Some file /\ Z.of_nat (length file) = Z.max n (Z.of_nat (length old)) /\ firstn (length old) file = old /\ (forall b, In b (skipn (length old) file) -> b = 0).
Proof.
  intros cap old n C N. unfold prealloc, to_pos. destruct (Z.ltb_spec n (2 ^ 63)) as [_|X]; [|lia]. destruct (Z.ltb_spec (Z.of_nat (length old)) n) as [L|L].
  - rewrite fill_spec by (assumption || lia). eexists. split; [reflexivity|]. split; [rewrite app_length, repeat_length; lia|]. split; [rewrite firstn_app, Nat.sub_diag, firstn_all; apply app_nil_r|]. intros b I. rewrite skipn_app, Nat.sub_diag, skipn_all in I. exact (repeat_spec _ _ _ I).
  - eexists. split; [reflexivity|]. split; [lia|]. split; [apply firstn_all|]. intros b I. rewrite skipn_all in I. destruct I.
Qed.
Print Assumptions C126_prealloc.
(* sizes that are negative as positions add nothing *)
Theorem C126_prealloc_refuted : exists n, 0 <= n < 2 ^ 64 /\ forall cap old, prealloc cap old n = Some old.
Proof. exists (2 ^ 63). split; [split; reflexivity || discriminate|]. intros cap old. unfold prealloc. change (to_pos (2 ^ 63)) with (- 2 ^ 63). destruct (Z.ltb_spec (Z.of_nat (length old)) (- 2 ^ 63)) as [L|L]; [lia|reflexivity]. Qed.
Print Assumptions C126_prealloc_refuted.

Example C126_ex : deep_copies 2 1 2 One U8 [1; 2; 3; 4] = Some [[1; 2]; [3; 4]] /\ prealloc (Some 2) [7; 8] 5 = Some [7; 8; 0; 0; 0] /\
  add_numbers (fun n => [ascii_of_nat (48 + Z.to_nat n); ":"%char]) ["a"; nl; nl; "b"]%char = ["1"; ":"; "a"; nl; "2"; ":"; nl; "3"; ":"; "b"]%char.
Proof. vm_compute. repeat split; reflexivity. Qed.
(* its lines, as used in C126_listing *)
Example C126_ex_lines : lines_of [["a"%char]; []; ["b"%char]] ["a"; nl; nl; "b"]%char.
Proof. apply (more_lines ["a"%char]); [cbn; intros [H|[]]; discriminate H|]. apply (more_lines []); [intros []|]. apply last_line. cbn. intros [H|[]]. discriminate H. Qed.
