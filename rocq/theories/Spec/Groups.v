(** The batches of a tree from left to right, sums over them, and the batches that the directories of a dataset hold. *)
From Coq Require Import ZArith List Bool.
From Verif Require Import Model.Strings Spec.Strings Model.Groups.
Import ListNotations.

Fixpoint leaves {A} (t : tree A) : list A := match t with Leaf a => [a] | Group _ l => flat_map leaves l end.
Definition sum (l : list Z) : Z := fold_right Z.add 0%Z l.
(** the groups in a tree *)
Fixpoint groups {A} (t : tree A) : list (bool * list (tree A)) := match t with Leaf _ => [] | Group b l => (b, l) :: flat_map groups l end.
Definition plain {A} (t : tree A) : list (bool * list (tree A)) := filter (fun g => negb (fst g)) (groups t).
Definition sound {A} (t : tree A) : Prop := forall l, In (true, l) (groups t) -> length l = 1%nat.
(** names of directories: not empty, and without '/' (47) or '\' (92) *)
Definition name_ok (n : str) : Prop := n <> [] /\ ~ In 47 n /\ ~ In 92 n.
Definition skipped (skip : list str) (n : str) : Prop := exists t, In t skip /\ substring_of t n.
(** [held subdirs root skip d b]: the batch b is one of those of the directory d of the dataset *)
Inductive held (subdirs : str -> list str) (root : str) (skip : list str) (d : str) : batch -> Prop :=
| H_itself : ~ skipped skip d -> subdirs (root ++ d ++ [47]) = [] -> held subdirs root skip d (Batch d (d ++ [47]) (root ++ d ++ [47]))
| H_sub n : ~ skipped skip d -> In n (subdirs (root ++ d ++ [47])) -> ~ skipped skip n -> held subdirs root skip d (Batch n (d ++ [47] ++ n ++ [47]) (root ++ d ++ [47] ++ n ++ [47])).
