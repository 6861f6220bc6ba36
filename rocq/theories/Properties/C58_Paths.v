(** C58: filtering paths by tokens, and the listing of directories. *)
From Coq Require Import ZArith List Bool Arith Lia Permutation.
From Verif Require Import Model.Strings Spec.Strings Model.Groups Model.Paths Spec.Names Spec.Paths Proofs.Paths.
Import ListNotations.
Open Scope nat_scope.

(** the paths kept are those without a removal token and, when there are tokens to keep, with one of them; each as often as before and in the same order *)
Theorem C58_kept : forall paths remove keep p, In p (filterFilePaths paths remove keep) <-> In p paths /\ kept remove keep p.
Proof. exact kept_all. Qed.
Print Assumptions C58_kept.
Theorem C58_order : forall paths remove keep, part (filterFilePaths paths remove keep) paths /\
  forall eqd p, kept remove keep p -> count_occ eqd (filterFilePaths paths remove keep) p = count_occ eqd paths p.
Proof. intros paths remove keep. split; [rewrite filter_eq; exact (filter_part _ paths)|exact (fun eqd p => kept_count eqd paths remove keep p)]. Qed.
Print Assumptions C58_order.
(** filtering again changes nothing; removing in two steps is removing at once *)
Theorem C58_idempotent : forall paths remove keep, filterFilePaths (filterFilePaths paths remove keep) remove keep = filterFilePaths paths remove keep.
Proof. exact filter_idempotent. Qed.
Print Assumptions C58_idempotent.
Theorem C58_removals : forall paths r r', filterFilePaths (filterFilePaths paths r []) r' [] = filterFilePaths paths (r ++ r') [].
Proof. exact filter_removals. Qed.
Print Assumptions C58_removals.
(** keeping in two steps is not keeping at once *)
Theorem C58_keeps_refuted : exists paths k k', filterFilePaths (filterFilePaths paths [] k) [] k' <> filterFilePaths paths [] (k ++ k').
Proof. exists [[97]; [98]], [[97]], [[98]]. vm_compute. discriminate. Qed.
Print Assumptions C58_keeps_refuted.
(** tokens are looked for in the whole path: one that occurs in the directory removes every file *)
Theorem C58_directory : forall d ns t remove keep, In t remove -> substring_of t d -> filterFilePaths (map (fun n => d ++ n) ns) remove keep = [].
Proof.
  intros d ns t remove keep I (a & b & ->). destruct (filterFilePaths _ remove keep) as [|p r] eqn:E; [reflexivity|]. exfalso.
  assert (K : In p (p :: r)) by (left; reflexivity). rewrite <- E in K. apply kept_all in K. destruct K as (K & N & _). apply N. apply in_map_iff in K. destruct K as (n & <- & _).
  exists t. split; [exact I|]. exists a, (b ++ n). rewrite <- !app_assoc. reflexivity.
Qed.
Print Assumptions C58_directory.
Theorem C58_names_only_refuted : exists d ns t, (forall n, In n ns -> ~ substring_of t n) /\ filterFilePaths (map (fun n => d ++ n) ns) [t] [] = [] /\ ns <> [].
Proof.
  exists [103; 116; 47], [[97]], [103; 116]. split; [|split; [reflexivity|discriminate]].
  intros n [ <- | [] ] (a & b & E). apply (f_equal (@length _)) in E. rewrite !app_length in E. cbn in E. lia.
Qed.
Print Assumptions C58_names_only_refuted.

(** a listing holds the regular files but Thumbs.db (or the directories but . and ..), sorted, whatever the order in which the system gives them *)
Theorem C58_files : forall dir es p, In p (getFilesFromDir dir (Some es)) <-> exists n, In (n, Regular) es /\ n <> [84; 104; 117; 109; 98; 115; 46; 100; 98] /\ p = add_slash dir ++ n.
Proof. exact files_in. Qed.
Print Assumptions C58_files.
Theorem C58_directories : forall dir es p, In p (getSubDirsFromDir dir (Some es)) <-> exists n, In (n, Directory) es /\ n <> [46] /\ n <> [46; 46] /\ p = add_slash dir ++ n.
Proof. exact dirs_in. Qed.
Print Assumptions C58_directories.
Theorem C58_sorted : forall dir es, NoDup (map fst es) ->
  (sorted (getFilesFromDir dir (Some es)) /\ NoDup (getFilesFromDir dir (Some es))) /\ (sorted (getSubDirsFromDir dir (Some es)) /\ NoDup (getSubDirsFromDir dir (Some es))).
Proof. exact listing_ok. Qed.
Print Assumptions C58_sorted.
Theorem C58_same_listing : forall dir es es', Permutation es es' -> getFilesFromDir dir (Some es) = getFilesFromDir dir (Some es') /\ getSubDirsFromDir dir (Some es) = getSubDirsFromDir dir (Some es').
Proof. exact files_order. Qed.
Print Assumptions C58_same_listing.
(** the slash is added once *)
Theorem C58_slash : forall p, add_slash (add_slash p) = add_slash p /\ (p <> [] -> (last (add_slash p) 0 = 47 \/ last (add_slash p) 0 = 92) /\ (add_slash p = p \/ add_slash p = p ++ [47])) /\ add_slash [] = [].
Proof.
  intros p. split; [exact (add_slash_idem p)|]. split; [|reflexivity]. intros N. destruct (add_slash_ends p N) as (S & E). split; [|exact E].
  unfold is_slash in S. apply orb_true_iff in S. rewrite !Nat.eqb_eq in S. exact S.
Qed.
Print Assumptions C58_slash.

Example C58_ex : filterFilePaths [[97; 98]; [98; 99]; [97; 99]; [100]] [[99]] [[97]; [100]] = [[97; 98]; [100]] /\
  getFilesFromDir [47; 120] (Some [([98], Regular); ([46], Directory); ([97], Regular); (thumbs, Regular); ([97; 97], Regular); ([100], Other)]) = [[47; 120; 47; 97]; [47; 120; 47; 97; 97]; [47; 120; 47; 98]] /\
  getSubDirsFromDir [47; 120; 47] (Some [([46; 46], Directory); ([98], Directory); ([97], Regular); ([65], Directory)]) = [[47; 120; 47; 65]; [47; 120; 47; 98]].
Proof. vm_compute. repeat split. Qed.
