(** C26: matrix archives. *)
From Coq Require Import ZArith List Lia.
From Verif Require Import Model.Simd Model.Archive Spec.Archive Proofs.Archive.
Import ListNotations.
Open Scope Z_scope.

Theorem C26_binary_roundtrip : forall m, wf_mat m -> read_binary (write_binary m) = Loaded m 0.
Proof. exact binary_roundtrip. Qed.
Print Assumptions C26_binary_roundtrip.

Theorem C26_binary_injective : forall a b, wf_mat a -> wf_mat b -> write_binary a = write_binary b -> a = b.
Proof. exact binary_injective. Qed.
Print Assumptions C26_binary_injective.

(** a region of interest is written with its own elements, whatever its row stride *)
Theorem C26_region_roundtrip : forall v, wf_view v ->
  read_binary (write_view v) = Loaded (Nmat (vty v) [vrows v; vcols v] (view_bytes v)) 0.
Proof. exact view_roundtrip. Qed.
Print Assumptions C26_region_roundtrip.

Theorem C26_lz4_roundtrip : forall comp decomp m f, lossless comp decomp -> wf_mat m ->
  write_lz4 comp m = Some f -> read_lz4 decomp f = Loaded m 0.
Proof. exact lz4_roundtrip. Qed.
Print Assumptions C26_lz4_roundtrip.

Theorem C26_lz4_write_succeeds : forall comp m, bounded_codec comp -> wf_mat m -> esz (ty m) * prod (dims m) < 2 ^ 31 - 1 ->
  exists f, write_lz4 comp m = Some f.
Proof. exact lz4_total. Qed.
Print Assumptions C26_lz4_write_succeeds.

(** a truncated binary archive is never accepted; cut inside the fixed header the reader uses an indeterminate dimension count *)
Theorem C26_binary_truncation_detected : forall m p, wf_mat m -> strict_prefix p (write_binary m) ->
  read_binary p = Throws \/ (read_binary p = Uninit /\ (length p < 24)%nat).
Proof. exact binary_truncated. Qed.
Print Assumptions C26_binary_truncation_detected.

(** ... whereas an incompressible matrix in a truncated LZ4 archive is returned partly uninitialised without an error *)
Theorem C26_lz4_truncation_undetected_refuted : exists comp decomp m f p m', lossless comp decomp /\ bounded_codec comp /\ wf_mat m /\
  write_lz4 comp m = Some f /\ strict_prefix p f /\ read_lz4 decomp p = Loaded m' 2.
Proof.
  exists (fun _ => []), (fun _ _ => None), (Nmat 0 [2; 2] [10; 20; 30; 40]). eexists. eexists. eexists.
  split; [ intros d H; congruence |]. split; [ intro d; cbn; lia |].
  split; [ repeat split; try (cbn; lia); repeat constructor; lia |].
  split; [ vm_compute; reflexivity |]. split.
  - exists [30; 40]. split; [ discriminate |].
    match goal with |- ?l = _ => instantiate (1 := firstn (length l - 2) l) end. reflexivity.
  - vm_compute. reflexivity.
Qed.
Print Assumptions C26_lz4_truncation_undetected_refuted.

(** exact condition for storing past the end of the matrix: the byte count of the header, not the matrix size, decides *)
Theorem C26_overrun_iff : forall f, read_binary f = Overrun <->
  exists t l n r, parse f = POk t l n (r, true) /\ n < 2 ^ 63 /\ esz t * ntotal l < Z.min n (Z.of_nat (length r)).
Proof. exact binary_overrun_iff. Qed.
Print Assumptions C26_overrun_iff.

(** changing one byte of a valid file (the element count) is enough *)
Theorem C26_header_not_validated_refuted : exists m i b, wf_mat m /\ (i < length (write_binary m))%nat /\
  read_binary (firstn i (write_binary m) ++ b :: skipn (S i) (write_binary m) ++ [0]) = Overrun /\
  exists m' u, read_binary (firstn i (write_binary m) ++ 1 :: skipn (S i) (write_binary m)) = Loaded m' u /\ 0 < u.
Proof.
  exists (Nmat 0 [2; 2] [10; 20; 30; 40]), 12%nat, 5. split; [ repeat split; try (cbn; lia); repeat constructor; lia |].
  split; [ vm_compute; lia |]. split; [ vm_compute; reflexivity |]. eexists. exists 3. split; [ vm_compute; reflexivity | lia ].
Qed.
Print Assumptions C26_header_not_validated_refuted.

(** reading into an already allocated continuous matrix of the same type and size *)
Theorem C26_read_into_continuous : forall v m, wf_view v -> continuous v = true -> wf_mat m -> ty m = vty v -> dims m = [vrows v; vcols v] ->
  exists mem', read_into (write_binary m) v = InPlace (View (vty v) (vrows v) (vcols v) (vstep v) (voff v) mem') /\
    view_bytes (View (vty v) (vrows v) (vcols v) (vstep v) (voff v) mem') = bytes m /\ length mem' = length (vmem v) /\
    forall i, (i < Z.to_nat (voff v) \/ Z.to_nat (voff v + vrows v * (vcols v * esz (vty v))) <= i)%nat -> nth_error mem' i = nth_error (vmem v) i.
Proof. exact into_continuous. Qed.
Print Assumptions C26_read_into_continuous.

(** reading into a region of interest of the same type and size stores the bytes contiguously: wrong elements inside, modified bytes outside *)
Theorem C26_read_into_region_refuted : exists v m v', wf_view v /\ wf_mat m /\ ty m = vty v /\ dims m = [vrows v; vcols v] /\
  read_into (write_binary m) v = InPlace v' /\ view_bytes v' <> bytes m /\
  exists i, (forall r, (r < 2)%nat -> (i < r * 3 \/ r * 3 + 2 <= i)%nat) /\ vstep v = 3 /\ voff v = 0 /\ vrows v = 2 /\ vcols v * esz (vty v) = 2 /\
    nth_error (vmem v') i <> nth_error (vmem v) i.
Proof.
  exists (View 0 2 2 3 0 [0;0;9;0;0;9]), (Nmat 0 [2; 2] [1; 2; 3; 4]). eexists.
  split; [ repeat split; try (cbn; lia); repeat constructor; lia |].
  split; [ repeat split; try (cbn; lia); repeat constructor; lia |].
  split; [ reflexivity |]. split; [ reflexivity |]. split; [ vm_compute; reflexivity |]. split; [ vm_compute; discriminate |].
  exists 2%nat. split; [ intros r H; lia |]. repeat split; vm_compute; discriminate.
Qed.
Print Assumptions C26_read_into_region_refuted.

(** plain text archives keep an integral value iff it has at most six significant digits *)
Theorem C26_plaintext_exact_iff : forall x, Z.abs x < 10 ^ 26 -> (plain x = x <-> six_digits x).
Proof. exact plain_exact_iff. Qed.
Print Assumptions C26_plaintext_exact_iff.

(** the value read back is the nearest multiple of the power of ten that leaves six digits, with an even digit on ties *)
Theorem C26_plaintext_nearest : forall x, Z.abs x < 10 ^ 26 -> exists j q, 0 <= j /\ plain x = Z.sgn x * (q * 10 ^ j) /\
  2 * Z.abs (Z.abs x - q * 10 ^ j) <= 10 ^ j /\ (2 * Z.abs (Z.abs x - q * 10 ^ j) = 10 ^ j -> Z.even q = true) /\
  Z.abs x < 10 ^ (j + 6) /\ (0 < j -> 10 ^ (j + 5) <= Z.abs x).
Proof. exact plain_nearest. Qed.
Print Assumptions C26_plaintext_nearest.

Theorem C26_plaintext_roundtrip_refuted : exists x, - 2 ^ 31 <= x < 2 ^ 31 /\ plain x <> x.
Proof. exists 1234567. split; [ lia |]. vm_compute. discriminate. Qed.
Print Assumptions C26_plaintext_roundtrip_refuted.

Example C26_ex_3d : let m := Nmat 3 [2; 1; 2] [1; 2; 3; 4; 5; 6; 7; 255] in wf_mat m /\ length (write_binary m) = 44%nat /\
  read_binary (write_binary m) = Loaded m 0.
Proof. split; [ repeat split; try (cbn; lia); repeat constructor; lia |]. split; vm_compute; reflexivity. Qed.
Example C26_ex_codec : lossless (fun d => rev d) (fun d n => Some (rev d)) /\ bounded_codec (fun d => rev d).
Proof. split; [ intros d _; now rewrite rev_involutive | intro d; now rewrite rev_length ]. Qed.
Example C26_ex_region : let v := View 0 2 2 3 1 [0;1;2;3;4;5;6;7] in wf_view v /\ view_bytes v = [1;2;4;5].
Proof. split; [ repeat split; try (cbn; lia); repeat constructor; lia | reflexivity ]. Qed.
Example C26_ex_plain : plain 1234567 = 1234570 /\ plain (-999999) = -999999 /\ plain 2147483647 = 2147480000.
Proof. repeat split. Qed.
