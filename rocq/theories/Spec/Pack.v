From Coq Require Import ZArith List.
From Verif Require Import Model.Archive.
Import ListNotations.
Open Scope Z_scope.
(** any cv::Mat, possibly empty *)
Definition wf_any (m : nmat) : Prop :=
  Forall (fun d => 0 <= d) (dims m) /\ Z.of_nat (length (bytes m)) = esz (ty m) * ntotal (dims m).
(** the same matrix, except that an empty one loses its type and sizes *)
Definition same_content (a b : nmat) : Prop := (bytes a <> [] -> b = a) /\ (bytes a = [] -> bytes b = []).
Definition total_bytes (ms : list nmat) : Z := Z.of_nat (length (flat_map bytes ms)).
