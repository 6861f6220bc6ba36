From Coq Require Import ZArith List Bool Lia.
From Verif Require Import Lib.Grid Model.Submodular Spec.Submodular Model.Clique Spec.Clique Proofs.Submodular Proofs.SubmodularLinear Proofs.SubmodularNormal Proofs.Clique Proofs.CliqueTight.
Import ListNotations.
Open Scope Z_scope.

(* several pushes of the same amount into one clique, with no way from the start of an earlier to the end of a later one *)
Section Several.
Variables n delta : Z.
Hypothesis Hn : 0 <= n.
Hypothesis Hd : 0 < delta.
Definition room (f : Z -> Z) (a : Z * Z) : Prop := 0 <= fst a < n /\ 0 <= snd a < n /\ forall S, separates n (fst a) (snd a) S -> delta <= f S.
Definition blocked (f : Z -> Z) (a b : Z * Z) : Prop := exists T, separates n (fst a) (snd b) T /\ f T = 0.
Definition moved (l : list (Z * Z)) (S : Z) : Z := fold_right (fun a x => shift (fst a) (snd a) delta S + x) 0 l.
Lemma moved_app l1 l2 S : moved (l1 ++ l2) S = moved l1 S + moved l2 S.
Proof. induction l1 as [|a l1 IH]; cbn [moved fold_right app] in *; [reflexivity|]. fold (moved (l1 ++ l2) S) (moved l1 S) in *. lia. Qed.
Lemma shift_normal_room f g u v : normal n f -> room f (u, v) -> (forall S, within n S -> g S = f S + shift u v delta S) -> normal n g.
Proof.
  intros (Sub & Pos & F0 & F1) (Hu & Hv & R) G. cbn [fst snd] in *. split; [|split; [|split]].
  - apply (submodular_linear n (fun i => (if i =? v then delta else 0) + (if i =? u then - delta else 0)) f g 0 Hn); [|exact Sub].
    intros S W. rewrite weight_shift, G by assumption. lia.
  - intros S W. rewrite G by exact W. assert (P := Pos S W). unfold shift. destruct (Z.testbit S u) eqn:Eu, (Z.testbit S v) eqn:Ev; try lia.
    assert (X := R S ltac:(split; [exact W|]; split; [exact Eu|unfold inside; congruence])). lia.
  - rewrite G by (apply within_0; lia). rewrite F0. unfold shift. rewrite !Z.bits_0. reflexivity.
  - rewrite G by (apply within_whole; lia). rewrite F1. unfold shift. rewrite !whole_spec by lia. replace (u <? n) with true by (symmetry; apply Z.ltb_lt; lia).
    replace (v <? n) with true by (symmetry; apply Z.ltb_lt; lia). lia.
Qed.
(* a tight set is left by no arc that has room *)
Lemma tight_closed f a T : room f a -> within n T -> f T = 0 -> inside T (fst a) -> inside T (snd a).
Proof.
  intros (_ & _ & R) W E I. unfold inside in *. destruct (Z.testbit T (snd a)) eqn:X; [reflexivity|exfalso]. assert (Y := R T). rewrite E in Y. assert (separates n (fst a) (snd a) T) by (split; [exact W|split; [exact I|unfold inside; congruence]]).
  specialize (Y H). lia.
Qed.
Lemma push_last_room f g a z : normal n f -> room f a -> room f z -> blocked f a z -> (forall S, within n S -> g S = f S + shift (fst z) (snd z) delta S) -> room g a.
Proof.
  intros (Sub & Pos & F0 & F1) Ra Rz (T & (WT & T1 & T2) & T3) G. destruct Ra as (Ha & Hb & R). split; [exact Ha|]. split; [exact Hb|]. intros S (WS & S1 & S2). rewrite G by exact WS.
  assert (Ra : room f a) by (split; [exact Ha|split; assumption]).
  assert (B := R S ltac:(split; [exact WS|split; assumption])). unfold shift. destruct (Z.testbit S (fst z)) eqn:E1, (Z.testbit S (snd z)) eqn:E2; try lia.
  assert (Va := tight_closed f a T Ra WT T3 T1). assert (Uz : ~ inside T (fst z)) by (intros X; apply T2; exact (tight_closed f z T Rz WT T3 X)).
  assert (X := Sub S T WS WT). destruct Rz as (Z1 & Z2 & RZ).
  assert (Y1 := RZ (Z.lor S T)). assert (Y2 := R (Z.land S T)). unfold separates, inside in *.
  assert (P1 : delta <= f (Z.lor S T)). { apply Y1. split; [apply within_lor; assumption|]. rewrite !Z.lor_spec, E1, E2. split; [reflexivity|]. cbn [orb]. exact T2. }
  assert (P2 : delta <= f (Z.land S T)). { apply Y2. split; [apply within_land; assumption|]. rewrite !Z.land_spec, S1, T1, Va. split; [reflexivity|]. rewrite andb_true_r. exact S2. }
  lia.
Qed.
Lemma push_last_blocked f g a b z : normal n f -> room f z -> blocked f a b -> blocked f a z -> (forall S, within n S -> g S = f S + shift (fst z) (snd z) delta S) -> blocked g a b.
Proof.
  intros (Sub & Pos & F0 & F1) Rz (T & (WT & T1 & T2) & T3) (U & (WU & U1 & U2) & U3) G. assert (X := Sub T U WT WU). assert (P1 := Pos _ (within_lor n T U Hn WT WU)). assert (W2 := within_land n T U Hn WT). assert (P2 := Pos _ W2).
  assert (E : f (Z.land T U) = 0) by lia. exists (Z.land T U).
  assert (V : ~ inside (Z.land T U) (snd z)) by (unfold inside in *; rewrite Z.land_spec; destruct (Z.testbit U (snd z)); [contradiction U2; reflexivity|]; rewrite andb_false_r; discriminate).
  assert (Q : ~ inside (Z.land T U) (fst z)) by (intros Y; apply V; exact (tight_closed f z _ Rz W2 E Y)).
  split; [split; [exact W2|]|].
  - unfold inside in *. rewrite !Z.land_spec, T1, U1. split; [reflexivity|]. destruct (Z.testbit T (snd b)); [contradiction T2; reflexivity|]. discriminate.
  - rewrite G by exact W2. rewrite E. unfold shift. unfold inside in *. destruct (Z.testbit (Z.land T U) (snd z)); [contradiction V; reflexivity|]. destruct (Z.testbit (Z.land T U) (fst z)); [contradiction Q; reflexivity|]. reflexivity.
Qed.
Lemma pairs_last {A} (R : A -> A -> Prop) l x : ForallOrdPairs R (l ++ [x]) -> ForallOrdPairs R l /\ Forall (fun a => R a x) l.
Proof.
  induction l as [|a l IH]; intros H; [split; constructor|]. inversion H as [|? ? F O]; subst. destruct (IH O) as [I1 I2]. apply Forall_app in F. destruct F as [F1 F2]. split.
  - constructor; assumption.
  - constructor; [inversion F2; assumption|exact I2].
Qed.
Lemma pairs_impl {A} (P : A -> Prop) (R R' : A -> A -> Prop) l : (forall a b, P a -> R a b -> R' a b) -> Forall P l -> ForallOrdPairs R l -> ForallOrdPairs R' l.
Proof.
  intros I F O. induction O as [|a l H O IH]; [constructor|]. inversion F; subst. constructor; [|apply IH; assumption]. rewrite Forall_forall in *. intros b Hb. apply I; auto.
Qed.
Lemma several l : forall f g, normal n f -> Forall (room f) l -> ForallOrdPairs (blocked f) l -> (forall S, within n S -> g S = f S + moved l S) -> normal n g.
Proof.
  induction l as [|z l IH] using rev_ind; intros f g N R B G.
  - destruct N as (Sub & Pos & F0 & F1). assert (E : forall S, within n S -> g S = f S) by (intros S W; rewrite G by exact W; cbn; lia).
    split; [intros A B' WA WB; rewrite !E by win; apply Sub; assumption|]. split; [intros S W; rewrite E by exact W; apply Pos; exact W|].
    rewrite !E by (apply within_0 || apply within_whole; lia). auto.
  - apply Forall_app in R. destruct R as [R Rz]. inversion Rz as [|? ? Z1 _]; subst. destruct (pairs_last _ _ _ B) as [B1 B2].
    set (h := fun S => f S + shift (fst z) (snd z) delta S).
    assert (Hh : forall S, within n S -> h S = f S + shift (fst z) (snd z) delta S) by reflexivity. clearbody h.
    apply (IH h g).
    + apply (shift_normal_room f h (fst z) (snd z)); [exact N|destruct z; exact Z1|exact Hh].
    + rewrite Forall_forall in *. intros a Ia. apply (push_last_room f h a z); auto.
    + apply (pairs_impl (fun a => blocked f a z) (blocked f)); [|exact B2|exact B1]. intros a b Ba Bab. apply (push_last_blocked f h a b z); auto.
    + intros S W. rewrite G, Hh, moved_app by exact W. cbn. lia.
Qed.
End Several.
