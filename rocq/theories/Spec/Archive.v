(** What a matrix archive must guarantee. *)
From Coq Require Import ZArith List.
From Verif Require Import Model.Archive.
Import ListNotations.
Open Scope Z_scope.

(** a non-empty matrix as OpenCV can hold it *)
Definition wf_mat (m : nmat) : Prop :=
  0 <= ty m < 4096 /\ (2 <= length (dims m) <= 32)%nat /\ Forall (fun d => 0 < d < 2 ^ 31) (dims m) /\
  Z.of_nat (length (bytes m)) = esz (ty m) * prod (dims m) /\ Forall (fun b => 0 <= b < 256) (bytes m) /\
  esz (ty m) * prod (dims m) < 2 ^ 63.
Definition lossless (comp : list Z -> list Z) (decomp : list Z -> Z -> option (list Z)) : Prop :=
  forall d, comp d <> [] -> decomp (comp d) (Z.of_nat (length d)) = Some d.
(** never larger than the buffer it is given *)
Definition bounded_codec (comp : list Z -> list Z) : Prop := forall d, (length (comp d) <= length d)%nat.
Definition strict_prefix (p f : list Z) : Prop := exists s, s <> [] /\ f = p ++ s.
(** a view whose rows lie inside its buffer without overlapping *)
Definition wf_view (v : view) : Prop :=
  0 <= vty v < 4096 /\ 0 < vrows v < 2 ^ 31 /\ 0 < vcols v < 2 ^ 31 /\ vcols v * esz (vty v) <= vstep v /\ 0 <= voff v /\
  voff v + (vrows v - 1) * vstep v + vcols v * esz (vty v) <= Z.of_nat (length (vmem v)) /\
  Forall (fun b => 0 <= b < 256) (vmem v) /\ esz (vty v) * (vrows v * vcols v) < 2 ^ 63.
Definition six_digits (x : Z) : Prop := exists m k, 0 <= k /\ Z.abs m < 10 ^ 6 /\ x = m * 10 ^ k.
