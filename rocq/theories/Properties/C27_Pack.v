(** C27: packData / unpackData. *)
From Coq Require Import ZArith List Lia.
From Verif Require Import Model.Archive Spec.Archive Model.Pack Spec.Pack Proofs.Pack.
Import ListNotations.
Open Scope Z_scope.

(** pack then unpack: the packet is the concatenation of all data, and every non-empty matrix comes back at its place with its type, sizes and content *)
Theorem C27_pack_unpack : forall ms, Forall wf_any ms -> total_bytes ms < 2 ^ 31 ->
  exists p out, packData ms = Some p /\ bytes p = flat_map bytes ms /\ unpackData p (infos ms) = Some out /\ Forall2 same_content ms out.
Proof. exact pack_unpack_same. Qed.
Print Assumptions C27_pack_unpack.

(** whatever packet and infos are given, an accepted unpacking covers the packet exactly with well-formed matrices *)
Theorem C27_unpack_exact : forall p is out, wf_any p -> Forall (fun i => Forall (fun d => 0 <= d) (isize i)) is -> unpackData p is = Some out ->
  flat_map bytes out = bytes p /\ Forall wf_any out /\ length out = length is.
Proof. exact unpack_exact. Qed.
Print Assumptions C27_unpack_exact.

(** type and sizes of empty matrices are lost *)
Theorem C27_empty_info_lost_refuted : exists ms p out, Forall wf_any ms /\ packData ms = Some p /\ unpackData p (infos ms) = Some out /\ out <> ms.
Proof.
  exists [Nmat 5 [0; 3] []; Nmat 0 [1; 2] [7; 8]]. eexists. eexists.
  split; [ repeat constructor; cbn; lia |]. split; [ vm_compute; reflexivity |]. split; [ vm_compute; reflexivity |]. discriminate.
Qed.
Print Assumptions C27_empty_info_lost_refuted.

(** without the 2 GiB bound (checked in debug builds only) the column count wraps: one byte is allocated for 2^32+1 bytes of data *)
Theorem C27_big_packet_overrun_refuted : exists ms, Forall wf_any ms /\ Forall (fun m => Forall (fun d => d < 2 ^ 31) (dims m)) ms /\
  total_bytes ms = 2 ^ 32 + 1 /\ (let '(tot, first, same) := scan ms 0 None true in packet_layout tot 0 same = (0, 1)) /\ packData ms = None.
Proof. exact pack_too_big. Qed.
Print Assumptions C27_big_packet_overrun_refuted.

Example C27_ex_mixed : let ms := [Nmat 0 [1; 2] [1; 2]; Nmat 5 [0; 0] []; Nmat 3 [2; 1] [3; 4; 5; 6]] in
  Forall wf_any ms /\ packData ms = Some (Nmat 0 [1; 6] [1; 2; 3; 4; 5; 6]) /\
  unpackData (Nmat 0 [1; 6] [1; 2; 3; 4; 5; 6]) (infos ms) = Some [Nmat 0 [1; 2] [1; 2]; Nmat 0 [] []; Nmat 3 [2; 1] [3; 4; 5; 6]].
Proof. split; [ repeat constructor; cbn; lia |]. split; reflexivity. Qed.
Example C27_ex_same_type : packData [Nmat 3 [1; 1] [1; 2]; Nmat 3 [1; 2] [3; 4; 5; 6]] = Some (Nmat 3 [1; 3] [1; 2; 3; 4; 5; 6]).
Proof. reflexivity. Qed.
