From Coq Require Import ZArith List.
From Verif Require Import Model.Archive Model.Pack Model.ArrayLoader Spec.Pack.
Import ListNotations.
Open Scope Z_scope.

Definition is_index (i : Z) : Prop := 0 <= i < size_max.
Definition packable (ms : list nmat) : Prop := Forall wf_any ms /\ total_bytes ms < 2 ^ 31.
Definition packable_all (raw : Z -> option (list nmat)) : Prop := forall i ms, raw i = Some ms -> packable ms.
(* the matrices ms are seen *)
Definition right (ms : list nmat) (a : answer) : Prop := exists out, a = Shown out /\ Forall2 same_content ms out.
Definition asked (c : input_call) : Z := match c with InputArray i => i | InputPacket i => i end.

(* the index of the last loading call *)
Definition load_of (c : feature_call) : option Z := match c with LoadF i => Some i | LoadArray i _ => Some i | _ => None end.
Definition saves (i : Z) (c : feature_call) : Prop := match c with Save j _ => j = i | SaveArray j _ => j = i | _ => False end.
(* i is the index of the last loading call among cs *)
Definition loaded_last (cs : list feature_call) (i : Z) : Prop := exists a c b, cs = a ++ c :: b /\ load_of c = Some i /\ Forall (fun d => load_of d = None) b.
(* m is what was saved last for i *)
Definition saved (cs : list feature_call) (i : Z) (m : nmat) : Prop := exists a b, cs = a ++ Save i m :: b /\ Forall (fun c => ~ saves i c) b.
Definition saved_array (cs : list feature_call) (i : Z) (ms : list nmat) : Prop := exists a b, cs = a ++ SaveArray i ms :: b /\ Forall (fun c => ~ saves i c) b.
Definition never_saved (cs : list feature_call) (i : Z) : Prop := Forall (fun c => ~ saves i c) cs.
(* nothing is saved for the index that was loaded last *)
Definition tidy (cs : list feature_call) : Prop := forall a c b i, cs = a ++ c :: b -> saves i c -> ~ loaded_last a i.
Definition nonempty (m : nmat) : Prop := bytes m <> [].
Definition out_call : Type := (Z * list nmat)%type.
(* all outputs that were saved, in order *)
Definition save_all (png : nmat -> nmat) (t : kind) (n : nat) (cs : list out_call) (a : archive) : option archive :=
  fold_left (fun o c => match o with Some a => save_outputs png t n a (fst c) (snd c) | None => None end) cs (Some a).
