(** C53: a tree of work batches flattens to its batches in order, its counts are the sums over them, calls reach each of them once, and the parsed directories give one batch each, with its own path. *)
From Coq Require Import ZArith List Bool Lia.
From Verif Require Import Model.Strings Spec.Strings Model.Groups Spec.Groups Proofs.Groups.
Import ListNotations.

Theorem C53_batches : forall (A : Type) b (l : list (tree A)), getBatches (Group b l) = leaves (Group b l).
Proof. exact @batches. Qed.
Print Assumptions C53_batches.

(** counts are sums over the batches, in 64 bits; exact as long as the sum fits *)
Theorem C53_counts : forall (A : Type) (f : A -> Z) b (l : list (tree A)),
  total f (Group b l) = Z.modulo (sum (map f (leaves (Group b l)))) (2 ^ 64) /\
  ((0 <= sum (map f (leaves (Group b l))) < 2 ^ 64)%Z -> total f (Group b l) = sum (map f (leaves (Group b l)))).
Proof. intros A f b l. exact (conj (total_leaves f b l) (total_exact f b l)). Qed.
Print Assumptions C53_counts.

(** the final count waits for every batch *)
Theorem C53_final : forall (A : Type) (f : A -> option Z) (t : tree A),
  (final f t = None <-> exists a, In a (leaves t) /\ f a = None) /\
  (forall g, (forall a, In a (leaves t) -> f a = Some (g a)) -> final f t = Some (total g t)).
Proof. intros A f t. exact (conj (final_none f t) (fun g => final_total f g t)). Qed.
Print Assumptions C53_final.

Theorem C53_any : forall (A : Type) (f : A -> bool) (t : tree A), any f t = true <-> exists a, In a (leaves t) /\ f a = true.
Proof. exact @any_leaf. Qed.
Print Assumptions C53_any.

(** a call made on a group is made once on each batch in order, up to the first that throws *)
Theorem C53_each : forall (A : Type) (ok : A -> bool) (t : tree A) v b, each ok t = (v, b) ->
  (b = true /\ v = leaves t /\ forall a, In a (leaves t) -> ok a = true) \/
  (b = false /\ exists u a w, v = u ++ [a] /\ leaves t = u ++ a :: w /\ ok a = false /\ forall x, In x u -> ok x = true).
Proof. intros A ok t v b E. pose proof (each_leaves ok t) as H. rewrite E in H. exact H. Qed.
Print Assumptions C53_each.

(** the printed structure names each batch once in order and each group that is not bare; it throws exactly when a bare group has not one batch *)
Theorem C53_print : forall (A : Type) (t : tree A),
  match print t with
  | Some v => sound t /\ flat_map (fun o => match o with Some a => [a] | None => [] end) v = leaves t /\ length (filter (fun o => match o with Some _ => false | None => true end) v) = length (plain t)
  | None => ~ sound t
  end.
Proof. intros A t. exact (print_outputs t). Qed.
Print Assumptions C53_print.

(** the batches found are those of the directories and sub-directories that are not skipped, with their paths *)
Theorem C53_parse : forall subdirs root skip dirs, (forall p n, In n (subdirs p) -> name_ok n) -> (forall d, In d dirs -> name_ok d) ->
  forall b, In b (leaves (parse subdirs root skip dirs)) <-> exists d, In d dirs /\ held subdirs root skip d b.
Proof. intros subdirs root skip dirs N D. exact (parse_held subdirs root skip N dirs D). Qed.
Print Assumptions C53_parse.

Theorem C53_distinct_paths : forall subdirs root skip dirs, (forall p n, In n (subdirs p) -> name_ok n) -> (forall d, In d dirs -> name_ok d) ->
  NoDup dirs -> (forall p, NoDup (subdirs p)) -> NoDup (map b_data (leaves (parse subdirs root skip dirs))).
Proof. intros subdirs root skip dirs N D. exact (parse_paths subdirs root skip N dirs D). Qed.
Print Assumptions C53_distinct_paths.

(** parsing prints what it found, so it gets through exactly when no directory of the dataset is itself skipped *)
Theorem C53_parse_succeeds : forall subdirs root skip dirs, print (parse subdirs root skip dirs) <> None <-> forall d, In d dirs -> ~ skipped skip d.
Proof. exact parse_prints. Qed.
Print Assumptions C53_parse_succeeds.

(** a skip token that names a whole directory makes the parsing throw *)
Theorem C53_skipping_a_directory_refuted : exists subdirs root skip dirs, (forall p n, In n (subdirs p) -> name_ok n) /\ (forall d, In d dirs -> name_ok d) /\ NoDup dirs /\ print (parse subdirs root skip dirs) = None.
Proof.
  exists (fun _ => []), [47], [[98]], [[97]; [98]]. split; [intros p n []|]. split; [|split].
  - intros d [ <- | [ <- | [] ] ]; repeat split; try discriminate; cbn; lia.
  - repeat constructor; cbn; intuition discriminate.
  - vm_compute. reflexivity.
Qed.
Print Assumptions C53_skipping_a_directory_refuted.

(** directories whose names hold a backslash can end up with the same path *)
Theorem C53_backslash_refuted : exists subdirs root dirs, NoDup dirs /\ (forall p, NoDup (subdirs p)) /\ (forall p n, In n (subdirs p) -> n <> [] /\ ~ In 47 n) /\ (forall d, In d dirs -> name_ok d) /\
  ~ NoDup (map b_data (leaves (parse subdirs root [] dirs))).
Proof.
  exists (fun _ => [[97; 92; 99]; [98; 92; 99]]), [47], [[100]]. split; [repeat constructor; cbn; intuition|]. split; [|split; [|split]].
  - intros _. repeat constructor; cbn; intuition discriminate.
  - intros _ n [ <- | [ <- | [] ] ]; split; try discriminate; cbn; lia.
  - intros d [ <- | [] ]; repeat split; try discriminate; cbn; lia.
  - intros H. vm_compute in H. inversion H as [|x l X _]; subst. apply X. left; reflexivity.
Qed.
Print Assumptions C53_backslash_refuted.

(** the dataset /: a/ with x, y and z, y being skipped, and b/ with nothing in it *)
Definition listing (p : str) : list str := if list_eq_dec PeanoNat.Nat.eq_dec p [47; 97; 47] then [[120]; [121]; [122]] else [].
Example C53_ex :
  map b_data (getBatches (parse listing [47] [[121]] [[97]; [98]])) = [[47; 97; 47; 120; 47]; [47; 97; 47; 122; 47]; [47; 98; 47]] /\
  total (fun b => Z.of_nat (length (b_rel b))) (parse listing [47] [[121]] [[97]; [98]]) = 10%Z /\
  fst (each (fun b => negb (Nat.eqb (length (b_rel b)) 2)) (parse listing [47] [[121]] [[98]; [97]])) = [Batch [98] [98; 47] [47; 98; 47]] /\
  print (parse listing [47] [[121]] [[97]; [98]]) = Some [None; None; Some (Batch [120] [97; 47; 120; 47] [47; 97; 47; 120; 47]); Some (Batch [122] [97; 47; 122; 47] [47; 97; 47; 122; 47]); Some (Batch [98] [98; 47] [47; 98; 47])].
Proof. vm_compute. repeat split. Qed.
