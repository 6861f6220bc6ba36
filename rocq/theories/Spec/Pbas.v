From Coq Require Import QArith List.
From Verif Require Import Model.Pbas.
Import ListNotations.

(* every frame of a video gives the same decision: foreground (true) or background (false) *)
Fixpoint always (c : config) (b : bool) (frames : list (list Q)) (p : pixel) : Prop :=
  match frames with
  | [] => True
  | f :: fs => fst (fst (step c f p)) = b /\ always c b fs (snd (step c f p))
  end.
