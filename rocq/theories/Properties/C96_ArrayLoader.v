(* C96: arrays of matrices, features and outputs are given back as they were loaded or saved, and when they are not. *)
From Coq Require Import ZArith List Lia.
From Verif Require Import Model.Archive Model.Pack Model.ArrayLoader Spec.Pack Spec.ArrayLoader Proofs.ArrayLoader.
Import ListNotations.
Open Scope Z_scope.

(* while only arrays are requested, each request gives the matrices of its index, in whatever order; what could not be loaded is an error each time and spoils nothing *)
Theorem C96_arrays : forall raw, packable_all raw -> forall cs i, Forall (fun c => match c with InputArray _ => True | _ => False end) cs -> is_index i ->
  match raw i with Some ms => right ms (input_array raw (input_run raw cs) i) | None => input_array raw (input_run raw cs) i = Throws end.
Proof. exact arrays_only. Qed.
Print Assumptions C96_arrays.
(* whatever was requested earlier, an array is right when another index was requested in between *)
Theorem C96_after_other : forall raw, packable_all raw -> forall cs c mc i ms, raw (asked c) = Some mc -> asked c <> i -> raw i = Some ms -> right ms (input_array raw (input_run raw (cs ++ [c])) i).
Proof. exact after_other. Qed.
Print Assumptions C96_after_other.
(* if the packed data of an index is requested after the array of another one, the array of that index is always released memory *)
Theorem C96_packet_refuted : forall raw, packable_all raw -> forall cs j i mj mi, Forall (fun c => match c with InputArray _ => True | _ => False end) cs -> is_index j -> raw j = Some mj -> raw i = Some mi ->
  i <> j -> (exists m, In m mj /\ bytes m <> []) -> input_array raw (input_run raw (cs ++ [InputArray j; InputPacket i])) i = Dangling.
Proof. exact stale. Qed.
Print Assumptions C96_packet_refuted.

(* features: what was saved last for an index is loaded, if nothing is ever saved for the index that was loaded last, or if another index was loaded since *)
Theorem C96_features : forall cs i m, (tidy cs \/ ~ loaded_last cs i) -> is_index i -> saved cs i m -> wf_any m -> nonempty m -> load_features (feature_run cs) i = Some m.
Proof. exact load_saved. Qed.
Print Assumptions C96_features.
Theorem C96_features_none : forall cs i, is_index i -> never_saved cs i -> load_features (feature_run cs) i = Some empty_mat.
Proof. exact load_never. Qed.
Print Assumptions C96_features_none.
Theorem C96_features_array : forall cs i ms, ~ loaded_last cs i -> is_index i -> saved_array cs i ms -> packable ms -> (exists m, In m ms /\ nonempty m) ->
  right ms (load_array (feature_run cs) i (infos ms)).
Proof. exact load_array_saved. Qed.
Print Assumptions C96_features_array.

(* saving for the index that was loaded last has no effect on the next load *)
Theorem C96_features_refuted : forall cs i m, load_features (feature_run (cs ++ [LoadF i; Save i m])) i = load_features (feature_run cs) i.
Proof. exact stale_load. Qed.
Print Assumptions C96_features_refuted.

Definition ex_a : nmat := Nmat 0 [1; 2] [1; 2].
Definition ex_b : nmat := Nmat 0 [1; 3] [3; 4; 5].
Definition ex_c : nmat := Nmat 0 [1; 5] [6; 7; 8; 9; 10].
Definition ex_empty : nmat := Nmat 0 [0; 0] [].

(* saving an empty matrix keeps the features saved before *)
Theorem C96_features_empty_refuted : exists cs i m old, tidy cs /\ saved cs i m /\ wf_any m /\ load_features (feature_run cs) i = Some old /\ bytes old <> bytes m.
Proof.
  exists [Save 0 ex_a; Save 0 ex_empty], 0, ex_empty, ex_a. split.
  - intros a c b i E S (x & d & y & X & D & _). subst a. destruct x as [|? [|? [|? x]]]; cbn in E; inversion E; subst; try discriminate.
  - split; [ exists [Save 0 ex_a], []; split; [ reflexivity | constructor ] |]. split; [ split; [ repeat constructor; lia | reflexivity ] |]. split; [ reflexivity | discriminate ].
Qed.
Print Assumptions C96_features_empty_refuted.
(* a load that fails for wrong packing information makes the next load with the right information give the released array of another index *)
Theorem C96_wrong_info_refuted : exists cs i is ms, ~ loaded_last cs i /\ saved_array cs i ms /\ right ms (load_array (feature_run cs) i (infos ms)) /\
  load_array (feature_run cs) i is = Throws /\ load_array (feature_run (cs ++ [LoadArray i is])) i (infos ms) = Dangling.
Proof.
  exists [SaveArray 0 [ex_a; ex_b]; SaveArray 1 [ex_b; ex_c]; LoadArray 0 (infos [ex_a; ex_b])], 1, (infos [ex_a; ex_b]), [ex_b; ex_c]. split.
  - intros (a & c & b & E & L & F). destruct a as [|? [|? [|? [|? a]]]]; cbn in E; inversion E; subst; try discriminate.
  - split; [ exists [SaveArray 0 [ex_a; ex_b]], [LoadArray 0 (infos [ex_a; ex_b])]; split; [ reflexivity | repeat constructor; cbn; lia ] |]. split.
    + exists [ex_b; ex_c]. split; [ reflexivity |]. repeat constructor; intro H; (reflexivity || discriminate).
    + split; reflexivity.
Qed.
Print Assumptions C96_wrong_info_refuted.
(* the same index with other packing information gives the array as it was unpacked before *)
Theorem C96_other_info_refuted : exists cs i is js out, load_array (feature_run cs) i is = Shown out /\ load_array (feature_run (cs ++ [LoadArray i is])) i js = Shown out /\
  (exists out2, load_array (feature_run cs) i js = Shown out2 /\ out2 <> out).
Proof.
  exists [SaveArray 0 [ex_a; ex_b]], 0, (infos [ex_a; ex_b]), (infos [ex_b; ex_a]), [ex_a; ex_b]. split; [ reflexivity |]. split; [ reflexivity |].
  eexists. split; [ reflexivity | discriminate ].
Qed.
Print Assumptions C96_other_info_refuted.

(* outputs: each stream comes back, whatever is saved for other indices afterwards *)
Theorem C96_outputs : forall png t n b a i ms a1 a2, save_outputs png t n a i ms = Some a1 -> save_all png t n b a1 = Some a2 -> Forall (fun c => fst c <> i) b ->
  t <> ImageKind \/ n = 1%nat -> (t = OtherKind \/ Forall (fun m => png m = m) ms) -> load_outputs t n a2 i = map Some ms.
Proof. exact outputs_last. Qed.
Print Assumptions C96_outputs.
(* several streams of the single image type are saved where they are never loaded from *)
Theorem C96_outputs_refuted : forall png n a i ms a', (1 < n)%nat -> save_outputs png ImageKind n a i ms = Some a' -> load_outputs ImageKind n a' i = load_outputs ImageKind n a i.
Proof. exact images_lost. Qed.
Print Assumptions C96_outputs_refuted.

Definition ex_raw (i : Z) : option (list nmat) := if i =? 2 then None else Some [ex_a; ex_empty; Nmat 0 [1; 1] [i mod 256]].
Example C96_ex_arrays : packable_all ex_raw /\ input_array ex_raw (input_run ex_raw [InputArray 5; InputArray 2; InputArray 5; InputArray 0]) 5 = Shown [ex_a; empty_mat; Nmat 0 [1; 1] [5]] /\
  input_array ex_raw (input_run ex_raw [InputArray 5; InputPacket 6]) 6 = Dangling /\ input_array ex_raw (input_run ex_raw [InputArray 5]) 2 = Throws.
Proof.
  split; [| split; [ reflexivity | split; reflexivity ]]. intros i ms E. unfold ex_raw in E. destruct (i =? 2); [ discriminate |]. inversion E; subst.
  split; [ repeat constructor; cbn; lia | vm_compute; reflexivity ].
Qed.
Example C96_ex_features : let cs := [Save 0 ex_a; LoadF 0; Save 1 ex_b; LoadF 1; Save 0 ex_c] in tidy cs /\ saved cs 0 ex_c /\ load_features (feature_run cs) 0 = Some ex_c /\
  load_features (feature_run [Save 0 ex_a; LoadF 0; Save 0 ex_c]) 0 = Some ex_a.
Proof.
  cbv zeta. split.
  - intros a c b i E Sv (x & d & y & X & D & F). subst a.
    destruct x as [|? [|? [|? [|? [|? x]]]]]; cbn in E; inversion E; subst; cbn in D; try discriminate; inversion D; subst; clear D E.
    + destruct y as [|? [|? [|? y]]]; cbn in *; match goal with H : _ = _ :: _ |- _ => inversion H; subst | _ => idtac end; cbn in *; try lia;
        try (inversion F as [|? ? A1 A2]; subst; inversion A2 as [|? ? A3 A4]; subst; discriminate); try (destruct y; discriminate).
      all: try (inversion F; subst; discriminate).
    + destruct y as [|? y]; cbn in *; match goal with H : _ = _ :: _ |- _ => inversion H; subst | _ => idtac end; cbn in *; try lia. destruct y; discriminate.
    + destruct x; discriminate.
  - split; [ exists [Save 0 ex_a; LoadF 0; Save 1 ex_b; LoadF 1], []; split; [ reflexivity | constructor ] |]. split; reflexivity.
Qed.
Example C96_ex_outputs : exists a, save_all (fun m => m) ImageArrayKind 2 [(0, [ex_a; ex_b]); (1, [ex_c; ex_a])] (fun _ => None) = Some a /\
  load_outputs ImageArrayKind 2 a 0 = [Some ex_a; Some ex_b] /\ load_outputs ImageArrayKind 2 a 1 = [Some ex_c; Some ex_a].
Proof. eexists. split; [ reflexivity |]. split; reflexivity. Qed.
Example C96_ex_lost : exists a, save_outputs (fun m => m) ImageKind 2 (fun _ => None) 0 [ex_a; ex_b] = Some a /\ load_outputs ImageKind 2 a 0 = [Some empty_mat; Some empty_mat].
Proof. eexists. split; reflexivity. Qed.
