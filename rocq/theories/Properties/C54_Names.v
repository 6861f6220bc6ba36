(** C54: the names of packets tell them apart, so what is saved is what is loaded; files are listed in packet order up to a number of packets. *)
From Coq Require Import ZArith List Bool Arith Lia.
From Verif Require Import Model.Strings Model.Groups Spec.Groups Model.Names Spec.Names Proofs.Names.
Import ListNotations.
Open Scope Z_scope.

(** a name is the index in decimal *)
Theorem C54_value : forall count i, size_t i -> value (getInputName count i) = i /\ value (getOutputName count None i) = i /\ value (getFeaturesName None i) = i.
Proof. intros count i I. exact (conj (zu_value _ i I) (conj (zu_value _ i I) (zu_value _ i I))). Qed.
Print Assumptions C54_value.
Theorem C54_injective : forall count i j, size_t i -> size_t j -> i <> j ->
  getInputName count i <> getInputName count j /\ getOutputName count None i <> getOutputName count None j /\ getFeaturesName None i <> getFeaturesName None j /\ cdnet_name i <> cdnet_name j.
Proof.
  intros count i j I J N. repeat split; intros E; apply N; [exact (input_inj count i j I J E)|exact (output_inj count i j I J E)|exact (features_inj i j I J E)|exact (cdnet_inj i j I J E)].
Qed.
Print Assumptions C54_injective.

(** the images of a directory, all with the same extension *)
Theorem C54_images : forall d e ns i j, ~ In 46%nat e -> Forall (fun n => name_ok (n ++ 46%nat :: e)) ns -> NoDup ns ->
  let paths := map (fun n => (d ++ [47%nat]) ++ n ++ 46%nat :: e) ns in
  0 <= i < Z.of_nat (length ns) -> 0 <= j < Z.of_nat (length ns) -> image_name paths i = image_name paths j -> i = j.
Proof. exact image_inj. Qed.
Print Assumptions C54_images.
(** images that differ only in their extension get the same name *)
Theorem C54_extensions_refuted : exists paths, NoDup paths /\ image_name paths 0 = image_name paths 1 /\ (length paths = 2)%nat.
Proof.
  exists [[97; 46; 112]%nat; [97; 46; 113]%nat]. split; [|split; reflexivity]. repeat constructor; cbn; intuition discriminate.
Qed.
Print Assumptions C54_extensions_refuted.

(** what is loaded for a packet is what was last saved for it *)
Theorem C54_load_after_save : forall (V : Type) count dir ext (l : list (Z * V)) fs i, size_t i -> Forall (fun p => size_t (fst p)) l ->
  loadOutput dir (getOutputName count None) ext i (fold_left (fun fs p => saveOutput dir (getOutputName count None) ext (fst p) (snd p) fs) l fs) =
  match last_saved l i with Some v => Some v | None => loadOutput dir (getOutputName count None) ext i fs end.
Proof. intros V count dir ext l fs i. exact (load_saved dir (getOutputName count None) ext size_t (output_inj count) l fs i). Qed.
Print Assumptions C54_load_after_save.
(** the same for arrays, stream by stream, and other packets stay *)
Theorem C54_load_after_save_array : forall (V : Type) count dir ext (vs : list V) fs i j, size_t i -> size_t j -> Z.of_nat (length vs) < 2 ^ 64 ->
  loadOutputArray dir (getOutputName count None) ext (length vs) j (saveOutputArray dir (getOutputName count None) ext i vs fs) =
  if i =? j then map Some vs else loadOutputArray dir (getOutputName count None) ext (length vs) j fs.
Proof.
  intros V count dir ext vs fs i j I J N. destruct (Z.eqb_spec i j) as [ -> | D ].
  - exact (array_same dir (getOutputName count None) ext size_t (output_inj count) vs j fs J N).
  - exact (array_other dir (getOutputName count None) ext size_t (output_inj count) vs i j fs I J D N).
Qed.
Print Assumptions C54_load_after_save_array.
(** two images of one name overwrite each other *)
Theorem C54_overwritten_refuted : exists paths, NoDup paths /\ forall (fs : @files Z) dir ext,
  loadOutput dir (getOutputName 2 (Some (image_name paths))) ext 0 (saveOutput dir (getOutputName 2 (Some (image_name paths))) ext 1 20 (saveOutput dir (getOutputName 2 (Some (image_name paths))) ext 0 10 fs)) = Some 20.
Proof.
  exists [[97; 46; 112]%nat; [97; 46; 113]%nat]. split; [repeat constructor; cbn; intuition discriminate|]. intros fs dir ext. exact (write_same _ _ _).
Qed.
Print Assumptions C54_overwritten_refuted.

(** a listing of the output directory has the packets in order up to a million of them, or a thousand million for the wide names *)
Theorem C54_order : forall count d e i j, size_t i -> size_t j -> let lim := if count <? 10000000 then 1000000 else 1000000000 in i < lim -> j < lim ->
  (before (d ++ getOutputName count None i ++ e) (d ++ getOutputName count None j ++ e) <-> i < j).
Proof. exact output_order. Qed.
Print Assumptions C54_order.
(** not beyond: wide names start only at ten million packets *)
Theorem C54_order_refuted : exists count i j, 0 <= i < j /\ j < count /\ before (getOutputName count None j) (getOutputName count None i).
Proof. exists 2000000, 999999, 1000000. split; [lia|]. split; [lia|]. vm_compute. left. repeat constructor. Qed.
Print Assumptions C54_order_refuted.

Example C54_ex : getInputName 100 42 = [48; 48; 48; 48; 52; 50]%nat /\ getOutputName 10000000 None 7 = [48; 48; 48; 48; 48; 48; 48; 48; 55]%nat /\
  getFeaturesName None 123456789 = [49; 50; 51; 52; 53; 54; 55; 56; 57]%nat /\ cdnet_name 0 = [98; 105; 110; 48; 48; 48; 48; 48; 49]%nat /\
  image_name [[47; 97; 47; 98; 46; 99; 46; 112]%nat] 0 = [98; 46; 99]%nat /\
  loadOutputArray [] (getOutputName 3 None) [] 2 1 (saveOutputArray [] (getOutputName 3 None) [] 1 [5; 6] (fun _ => None)) = [Some 5; Some 6].
Proof. vm_compute. repeat split. Qed.
