From Coq Require Import ZArith List Bool Lia Permutation.
From Verif Require Import Model.MoveLoop Spec.MoveLoop.
Import ListNotations.
Open Scope Z_scope.

(* the functor *)
Lemma order_first dc cnt l : sorted_by (before dc cnt) l -> In dc l -> exists r, l = dc :: r.
Proof.
  intros S H. destruct l as [|a r]; [destruct H|]. destruct H as [->|H]; [exists r; reflexivity|]. apply In_nth_error in H. destruct H as [j H]. assert (X := S 0%nat (Datatypes.S j) a dc ltac:(lia) eq_refl H). unfold before in X. rewrite Z.eqb_refl in X. discriminate.
Qed.
Lemma order_rest dc cnt l : sorted_by (before dc cnt) l -> forall i j a b, (i < j)%nat -> nth_error l i = Some a -> nth_error l j = Some b -> a <> dc -> cnt b <= cnt a.
Proof.
  intros S i j a b H A B N. assert (X := S i j a b H A B). unfold before in X. destruct (Z.eqb_spec b dc); [discriminate|]. destruct (Z.eqb_spec a dc); [contradiction|]. apply Z.ltb_ge in X. exact X.
Qed.

Section Loop.
  Context {E L : Type} (n : Z) (ord : Z -> Z) (maxr : nat) (cont : bool) (stereo : Z -> E -> E * bool) (energy : E -> Z) (seg : E -> L) (project : E -> E) (refresh : bool -> E -> E) (resegm : Z -> E -> E * Z) (update : E -> E) (near4 near3 : L -> L -> bool).
  Let pass := pass cont seg refresh resegm near4.
  Let infer := infer n ord maxr cont stereo energy seg project refresh resegm update near4 near3.

  Lemma pass_length more : forall i0 k e q c t pre, (length (snd (pass more i0 k e q c t pre)) <= more)%nat.
  Proof.
    induction more as [|m IH]; intros i0 k e q c t pre; unfold pass; cbn [MoveLoop.pass]; fold pass; [cbn; lia|]. destruct (negb (q <? 2)); [cbn; lia|]. destruct (resegm _ _) as [e2 d]. destruct (_ =? 1).
    - match goal with |- context [pass m ?a ?b ?x ?y ?z ?w ?v] => assert (X := IH a b x y z w v); destruct (pass m a b x y z w v) as [[[i e'] t'] l] end. cbn [snd length] in *. lia.
    - destruct (near4 _ _); [cbn; lia|]. match goal with |- context [pass m ?a ?b ?x ?y ?z ?w ?v] => assert (X := IH a b x y z w v); destruct (pass m a b x y z w v) as [[[i e'] t'] l] end. cbn [snd length] in *. lia.
  Qed.
  Lemma parity x : (if (x + 1) mod 2 =? 0 then 1 else 0) = 1 - (if x mod 2 =? 0 then 1 else 0).
  Proof. destruct (Z.eqb_spec (x mod 2) 0), (Z.eqb_spec ((x + 1) mod 2) 0); Z.div_mod_to_equations; lia. Qed.
  Lemma pass_turn more : forall i0 k e q c t pre, in_turn (if (i0 + (k + 1)) mod 2 =? 0 then 1 else 0) (snd (pass more i0 k e q c t pre)).
  Proof.
    induction more as [|m IH]; intros i0 k e q c t pre; unfold pass; cbn [MoveLoop.pass]; fold pass; [exact I|]. destruct (negb (q <? 2)); [exact I|]. destruct (resegm _ _) as [e2 d]. destruct (_ =? 1).
    - match goal with |- context [pass m ?a ?b ?x ?y ?z ?w ?v] => assert (X := IH a b x y z w v); destruct (pass m a b x y z w v) as [[[i e'] t'] l] end. cbn [snd in_turn] in *. split; [reflexivity|]. rewrite <- parity. rewrite Z.add_assoc in X. exact X.
    - destruct (near4 _ _); [cbn; auto|]. match goal with |- context [pass m ?a ?b ?x ?y ?z ?w ?v] => assert (X := IH a b x y z w v); destruct (pass m a b x y z w v) as [[[i e'] t'] l] end. cbn [snd in_turn] in *. split; [reflexivity|]. rewrite <- parity. rewrite Z.add_assoc in X. exact X.
  Qed.
  Lemma pass_total more : cont = true -> forall i0 k e q c t pre, let '(_, _, t', l) := pass more i0 k e q c t pre in
    t' = t + (if k mod 2 =? 0 then seconds l else match l with [] => 0 | (_, d) :: r => d + seconds r end).
  Proof.
    intros C. induction more as [|m IH]; intros i0 k e q c t pre; unfold pass; cbn [MoveLoop.pass]; fold pass; [destruct (k mod 2 =? 0); cbn; lia|]. destruct (negb (q <? 2)); [destruct (k mod 2 =? 0); cbn; lia|]. destruct (resegm _ _) as [e2 d]. rewrite C, !orb_true_r.
    assert (P : k mod 2 = 0 /\ (k + 1) mod 2 = 1 \/ k mod 2 = 1 /\ (k + 1) mod 2 = 0) by (Z.div_mod_to_equations; lia). destruct P as [[P Q]|[P Q]]; rewrite P, Q; cbn [Z.eqb Pos.eqb].
    - match goal with |- context [pass m ?a ?b ?x ?y ?z ?w ?v] => assert (X := IH a b x y z w v); destruct (pass m a b x y z w v) as [[[i e'] t'] l] end. rewrite Q in X. cbn [Z.eqb] in X. destruct l as [|[? ?] ?]; cbn [seconds] in *; exact X.
    - destruct (near4 _ _); [cbn; lia|]. match goal with |- context [pass m ?a ?b ?x ?y ?z ?w ?v] => assert (X := IH a b x y z w v); destruct (pass m a b x y z w v) as [[[i e'] t'] l] end. rewrite Q in X. cbn [Z.eqb] in X. lia.
  Qed.
  Lemma pass_all more : cont = false -> forall i0 k e q c t pre, (k mod 2 = 0 /\ Nat.even more = true \/ k mod 2 = 1 /\ Nat.even more = false /\ q < 2) ->
    let '(_, _, t', l) := pass more i0 k e q c t pre in t' = t + (if k mod 2 =? 0 then 0 else c) + sum l.
  Proof.
    intros C. induction more as [|m IH]; intros i0 k e q c t pre H; unfold pass; cbn [MoveLoop.pass]; fold pass.
    { destruct H as [[-> _]|(_ & H & _)]; [cbn; lia|discriminate]. }
    rewrite Nat.even_succ, <- Nat.negb_even in H. destruct H as [[P V]|(P & V & Q)].
    - rewrite P. assert (Q : (k + 1) mod 2 = 1) by (Z.div_mod_to_equations; lia). destruct (Z.ltb_spec q 2); cbn [negb]; [|cbn; lia]. destruct (resegm _ _) as [e2 d]. rewrite Q. cbn [Z.eqb Pos.eqb orb]. match goal with |- context [pass m ?a ?b ?x ?y ?z ?w ?v] => assert (X := IH a b x y z w v); destruct (pass m a b x y z w v) as [[[i e'] t'] l] end. rewrite Q in X. cbn [Z.eqb] in X. cbn [sum]. rewrite X; [lia|]. right. split; [reflexivity|]. split; [destruct (Nat.even m); [discriminate V|reflexivity]|lia].
    - rewrite P. assert (R : (k + 1) mod 2 = 0) by (Z.div_mod_to_equations; lia). destruct (Z.ltb_spec q 2); [|lia]. cbn [negb]. destruct (resegm _ _) as [e2 d]. rewrite R, C. cbn [Z.eqb Pos.eqb orb]. destruct (near4 _ _); [cbn; lia|]. match goal with |- context [pass m ?a ?b ?x ?y ?z ?w ?v] => assert (X := IH a b x y z w v); destruct (pass m a b x y z w v) as [[[i e'] t'] l] end. rewrite R in X. cbn [Z.eqb] in X. cbn [sum]. rewrite X; [lia|]. left. split; [reflexivity|]. destruct (Nat.even m); [reflexivity|discriminate V].
  Qed.
  (* what moves keep, a pass keeps *)
  Lemma pass_keeps (P : E -> Prop) : (forall b e, P e -> P (refresh b e)) -> (forall a e, P e -> P (fst (resegm a e))) -> forall more i0 k e q c t pre, P e -> P (snd (fst (fst (pass more i0 k e q c t pre)))).
  Proof.
    intros Hf Hr. induction more as [|m IH]; intros i0 k e q c t pre H; unfold pass; cbn [MoveLoop.pass]; fold pass; [exact H|]. destruct (negb (q <? 2)); [exact H|].
    match goal with |- context [resegm ?a ?x] => assert (X : P (fst (resegm a x))) by (apply Hr; destruct (_ || cont); [apply Hf|]; exact H); destruct (resegm a x) as [e2 d] end. cbn [fst] in X. destruct (_ =? 1).
    - match goal with |- context [pass m ?a ?b ?x ?y ?z ?w ?v] => assert (Y := IH a b x y z w v X); destruct (pass m a b x y z w v) as [[[i e'] t'] l] end. exact Y.
    - destruct (near4 _ _); [exact X|]. match goal with |- context [pass m ?a ?b ?x ?y ?z ?w ?v] => assert (Y := IH a b x y z w v X); destruct (pass m a b x y z w v) as [[[i e'] t'] l] end. exact Y.
  Qed.

  Lemma infer_length more : forall t idx q last just i0 e pre, (length (snd (infer more t idx q last just i0 e pre)) <= more)%nat.
  Proof.
    induction more as [|m IH]; intros t idx q last just i0 e pre; unfold infer; cbn [MoveLoop.infer]; fold pass; fold infer; [cbn; lia|]. destruct (negb (q <? n)); [cbn; lia|]. destruct (stereo _ _) as [e1 ch]. destruct (negb just && _); [cbn; lia|]. destruct (t mod n =? 0).
    - destruct (pass _ _ _ _ _ _ _ _) as [[[i e2] tot] l]. cbv zeta. destruct (near3 _ _); [cbn; lia|]. match goal with |- context [infer m ?a ?b ?x ?y ?z ?w ?v ?u] => assert (X := IH a b x y z w v u); destruct (infer m a b x y z w v u) as [[s e'] l'] end. cbn [snd length] in *. lia.
    - match goal with |- context [infer m ?a ?b ?x ?y ?z ?w ?v ?u] => assert (X := IH a b x y z w v u); destruct (infer m a b x y z w v u) as [[s e'] l'] end. cbn [snd length] in *. lia.
  Qed.
  Definition fine (b : block) : Prop := (length (moves b) <= maxr)%nat /\ (exists a, (a = 0 \/ a = 1) /\ in_turn a (moves b)) /\ (cont = true -> updated b = (0 <? seconds (moves b))) /\ (cont = false -> Nat.even maxr = true -> updated b = (0 <? sum (moves b))).
  Lemma infer_block more : 0 < n -> forall t idx q last just i0 e pre j b, 0 <= idx < n -> nth_error (snd (infer more t idx q last just i0 e pre)) j = Some b ->
    label b = ord ((idx + Z.of_nat j) mod n) /\ ((t + Z.of_nat j) mod n <> 0 -> moves b = []) /\ fine b.
  Proof.
    intros Hn. assert (F0 : forall a ch, fine {| label := a; changed := ch; moves := []; updated := false |}).
    { intros a ch. unfold fine. cbn. split; [lia|]. split; [exists 0; auto|split; reflexivity]. }
    induction more as [|m IH]; intros t idx q last just i0 e pre j b Hi; unfold infer; cbn [MoveLoop.infer]; fold pass; fold infer; [destruct j; discriminate|]. destruct (negb (q <? n)); [destruct j; discriminate|]. destruct (stereo _ _) as [e1 ch].
    assert (Hi' : 0 <= (idx + 1) mod n < n) by (apply Z.mod_pos_bound; exact Hn).
    destruct (negb just && _).
    { destruct j as [|[|j]]; cbn [snd nth_error]; intros H; try discriminate. injection H as <-. cbn [label moves]. rewrite Z.add_0_r, Z.mod_small by lia. split; [reflexivity|]. split; [reflexivity|apply F0]. }
    assert (NX : forall a b' x y z w v u, nth_error (snd (infer m a b' x y z w v u)) (pred j) = Some b -> b' = (idx + 1) mod n -> a = t + 1 -> (0 < j)%nat -> label b = ord ((idx + Z.of_nat j) mod n) /\ ((t + Z.of_nat j) mod n <> 0 -> moves b = []) /\ fine b).
    { intros a b' x y z w v u H -> -> J. destruct (IH _ _ _ _ _ _ _ _ _ _ Hi' H) as (A & B & C). rewrite Zplus_mod_idemp_l in A. replace (idx + 1 + Z.of_nat (pred j)) with (idx + Z.of_nat j) in A by lia. replace (t + 1 + Z.of_nat (pred j)) with (t + Z.of_nat j) in B by lia. auto. }
    destruct (Z.eqb_spec (t mod n) 0) as [T|T].
    - match goal with |- context [pass ?h ?a ?b ?x ?y ?z ?w ?v] => assert (P1 := pass_length h a b x y z w v); assert (P2 := pass_turn h a b x y z w v); assert (P3 := fun C => pass_total h C a b x y z w v); assert (P4 := fun C => pass_all h C a b x y z w v); destruct (pass h a b x y z w v) as [[[i e2] tot] l] end. cbv zeta.
      assert (F : fine {| label := ord idx; changed := ch; moves := l; updated := 0 <? tot |}).
      { unfold fine. cbn [moves updated]. split; [exact P1|]. split; [eexists; split; [|exact P2]; destruct (_ =? 0); auto|]. split.
        - intros C. rewrite (P3 C). reflexivity.
        - intros C V. rewrite (P4 C (or_introl (conj eq_refl V))). reflexivity. }
      destruct (near3 _ _).
      + destruct j as [|[|j]]; cbn [snd nth_error]; intros H; try discriminate. injection H as <-. cbn [label]. rewrite !Z.add_0_r, Z.mod_small by lia. split; [reflexivity|]. split; [intros X; contradiction|exact F].
      + match goal with |- context [infer m ?a ?b' ?x ?y ?z ?w ?v ?u] => assert (X := NX a b' x y z w v u); destruct (infer m a b' x y z w v u) as [[s e'] l'] end. destruct j as [|j]; cbn [snd nth_error pred] in *; intros H; [|apply X; [exact H|reflexivity|reflexivity|lia]]. injection H as <-. cbn [label]. rewrite !Z.add_0_r, Z.mod_small by lia. split; [reflexivity|]. split; [intros Y; contradiction|exact F].
    - match goal with |- context [infer m ?a ?b' ?x ?y ?z ?w ?v ?u] => assert (X := NX a b' x y z w v u); destruct (infer m a b' x y z w v u) as [[s e'] l'] end. destruct j as [|j]; cbn [snd nth_error pred] in *; intros H; [|apply X; [exact H|reflexivity|reflexivity|lia]]. injection H as <-. cbn [label moves]. rewrite !Z.add_0_r, Z.mod_small by lia. split; [reflexivity|]. split; [reflexivity|apply F0].
  Qed.

  Lemma pass_some m i0 k e c t pre : (0 < m)%nat -> snd (pass m i0 k e 0 c t pre) <> [].
  Proof.
    destruct m as [|m]; [lia|]. intros _. unfold pass. cbn [MoveLoop.pass]. cbn [Z.ltb Z.compare negb]. destruct (resegm _ _) as [e2 d]. destruct (_ =? 1); [|destruct (near4 _ _); [discriminate|]]; destruct (MoveLoop.pass _ _ _ _ _ _ _ _ _ _ _ _) as [[[i e'] t'] l]; discriminate.
  Qed.
  Lemma infer_some more : (0 < maxr)%nat -> forall t idx q last just i0 e pre j b, fst (fst (infer more t idx q last just i0 e pre)) <> Energy -> nth_error (snd (infer more t idx q last just i0 e pre)) j = Some b -> (t + Z.of_nat j) mod n = 0 -> moves b <> [].
  Proof.
    intros Hm. induction more as [|m IH]; intros t idx q last just i0 e pre j b; unfold infer; cbn [MoveLoop.infer]; fold pass; fold infer; [destruct j; discriminate|]. destruct (negb (q <? n)); [destruct j; discriminate|]. destruct (stereo _ _) as [e1 ch]. destruct (negb just && _); [intros H; destruct H; reflexivity|].
    destruct (Z.eqb_spec (t mod n) 0) as [T|T].
    - match goal with |- context [pass ?h ?a ?b ?x ?y ?z ?w ?v] => assert (P := pass_some h a b x z w v Hm); destruct (pass h a b x y z w v) as [[[i e2] tot] l] end. cbn [snd] in P. cbv zeta. destruct (near3 _ _).
      + destruct j as [|[|j]]; cbn [snd nth_error]; intros _ H; try discriminate. injection H as <-. intros _. exact P.
      + match goal with |- context [infer m ?a ?b' ?x ?y ?z ?w ?v ?u] => assert (X := IH a b' x y z w v u); destruct (infer m a b' x y z w v u) as [[s e'] l'] end. cbn [fst snd] in *. intros S. destruct j as [|j]; cbn [nth_error]; intros H; [injection H as <-; intros _; exact P|]. intros K. apply (X j b S H). rewrite <- K. f_equal. lia.
    - match goal with |- context [infer m ?a ?b' ?x ?y ?z ?w ?v ?u] => assert (X := IH a b' x y z w v u); destruct (infer m a b' x y z w v u) as [[s e'] l'] end. cbn [fst snd] in *. intros S. destruct j as [|j]; cbn [nth_error]; intros H K; [rewrite Z.add_0_r in K; contradiction|]. apply (X j b S H). rewrite <- K. f_equal. lia.
  Qed.

  Definition quiet (b : block) : Prop := changed b = false /\ updated b = false.
  Lemma infer_quiet more : forall t idx q last just i0 e pre, 0 <= q <= n -> fst (fst (infer more t idx q last just i0 e pre)) = Unchanged -> let w := snd (infer more t idx q last just i0 e pre) in
    (Forall quiet w /\ q + Z.of_nat (length w) = n) \/ exists a b, w = a ++ b /\ Z.of_nat (length b) = n /\ Forall quiet b.
  Proof.
    induction more as [|m IH]; intros t idx q last just i0 e pre Hq; unfold infer; cbn [MoveLoop.infer]; fold pass; fold infer; [discriminate|]. destruct (Z.ltb_spec q n) as [Q|Q]; cbn [negb]; [|intros _; left; cbn; split; [constructor|lia]]. destruct (stereo _ _) as [e1 ch]. destruct (negb just && _); [discriminate|].
    assert (ST : forall b w, (Forall quiet w /\ (if updated b then 0 else if changed b then 0 else q + 1) + Z.of_nat (length w) = n \/ (exists a b', w = a ++ b' /\ Z.of_nat (length b') = n /\ Forall quiet b')) ->
      (Forall quiet (b :: w) /\ q + Z.of_nat (length (b :: w)) = n) \/ exists a b', b :: w = a ++ b' /\ Z.of_nat (length b') = n /\ Forall quiet b').
    { intros b w [[A B]|(a & b' & -> & A & B)]; [|right; exists (b :: a), b'; repeat split; assumption]. destruct (updated b) eqn:U; [right; exists [b], w; split; [reflexivity|]; split; [lia|exact A]|]. destruct (changed b) eqn:C; [right; exists [b], w; split; [reflexivity|]; split; [lia|exact A]|]. left. split; [constructor; [split; assumption|exact A]|cbn [length]; lia]. }
    destruct (t mod n =? 0).
    - destruct (pass _ _ _ _ _ _ _ _) as [[[i e2] tot] l]. cbv zeta. destruct (near3 _ _); [discriminate|]. match goal with |- context [infer m ?a ?b' ?x ?y ?z ?w ?v ?u] => assert (X := IH a b' x y z w v u); destruct (infer m a b' x y z w v u) as [[s e'] l'] end. cbn [fst snd] in *. intros F. apply ST. cbn [updated changed]. apply X; [destruct (0 <? tot), ch; lia|exact F].
    - match goal with |- context [infer m ?a ?b' ?x ?y ?z ?w ?v ?u] => assert (X := IH a b' x y z w v u); destruct (infer m a b' x y z w v u) as [[s e'] l'] end. cbn [fst snd] in *. cbv zeta in *. intros F. apply ST. cbn [updated changed]. apply X; [destruct ch; lia|exact F].
  Qed.

  Lemma infer_energy more : (forall a e, energy (fst (stereo a e)) <= energy e) -> (forall e, energy (project e) <= energy e) -> (forall b e, energy (refresh b e) <= energy e) -> (forall a e, energy (fst (resegm a e)) <= energy e) ->
    forall t idx q last just i0 e pre, (just = true \/ energy e <= last) -> fst (fst (infer more t idx q last just i0 e pre)) <> Energy.
  Proof.
    intros H1 H2 H3 H4. induction more as [|m IH]; intros t idx q last just i0 e pre H; unfold infer; cbn [MoveLoop.infer]; fold pass; fold infer; [discriminate|]. destruct (negb (q <? n)); [discriminate|]. assert (X := H1 (ord idx) e). destruct (stereo _ _) as [e1 ch]. cbn [fst] in X.
    destruct (negb just && (last <? energy e1)) eqn:B. { exfalso. apply andb_true_iff in B. destruct B as [B C]. apply Z.ltb_lt in C. destruct just; [discriminate|]. destruct H; [discriminate|lia]. }
    destruct (t mod n =? 0).
    - match goal with |- context [pass ?h ?a ?b ?x ?y ?z ?w ?v] => assert (Y := pass_keeps (fun e0 => energy e0 <= energy e1) (fun b0 e0 K => Z.le_trans _ _ _ (H3 b0 e0) K) (fun a0 e0 K => Z.le_trans _ _ _ (H4 a0 e0) K) h a b x y z w v (H2 e1)); destruct (pass h a b x y z w v) as [[[i e2] tot] l] end. cbn [fst snd] in Y. cbv zeta. destruct (near3 _ _); [discriminate|]. match goal with |- context [infer m ?a ?b' ?x ?y ?z ?w ?v ?u] => assert (K := IH a b' x y z w v u); destruct (infer m a b' x y z w v u) as [[s e'] l'] end. apply K. destruct (0 <? tot); [left; reflexivity|right; exact Y].
    - match goal with |- context [infer m ?a ?b' ?x ?y ?z ?w ?v ?u] => assert (K := IH a b' x y z w v u); destruct (infer m a b' x y z w v u) as [[s e'] l'] end. apply K. right. lia.
  Qed.
End Loop.
