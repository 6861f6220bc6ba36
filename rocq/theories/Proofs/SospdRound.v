From Coq Require Import ZArith List Bool Lia.
From Verif Require Import Lib.Grid Model.Submodular Spec.Submodular Model.Clique Spec.Clique Model.Flow Spec.Flow Proofs.Submodular Proofs.SubmodularLinear Proofs.SubmodularNormal Proofs.Clique Proofs.CliqueTight Proofs.CliqueBound Proofs.Flow Proofs.FlowCut Spec.FlowPath.
From Verif Require Model.Sospd Spec.Sospd.
From Verif Require Import Proofs.Sospd.
Import ListNotations.
Open Scope Z_scope.
Import Verif.Model.Sospd.
Local Notation sane := Spec.Sospd.sane.
Local Notation value := Spec.Sospd.value.
Local Notation reading := Spec.Sospd.reading.
Local Notation tightly := Spec.Sospd.tight.
Local Notation stack := Spec.Sospd.stack.

Lemma weigh_total m psi S : weigh m psi S = total m (fun j => if Z.testbit S j then psi j else 0).
Proof. induction m as [|m IH]; cbn [weigh total]; [reflexivity|]. rewrite IH. reflexivity. Qed.
(* the problem of a round *)
Definition move_net (e : mle) (st : sp) (fus : Z -> Z) : net :=
  {| nnodes := nv e; ncl := nc e; csize := size e; members := node e;
     c_si := fun i => fst (alpha_terms (height_diff e (lam st) i (lab st i) (fus i))); c_it := fun i => snd (alpha_terms (height_diff e (lam st) i (lab st i) (fus i))) |}.
Lemma picked_none k nodes : picked k nodes (fun _ => false) = 0.
Proof. induction k as [|m IH]; cbn [picked]; lia. Qed.
Lemma terms_diff d : fst (alpha_terms d) - snd (alpha_terms d) = d.
Proof. unfold alpha_terms. destruct (0 <? d); cbn [fst snd]; lia. Qed.
Lemma reading_same k nodes x y : (forall i, x i = y i) -> reading k nodes x = reading k nodes y.
Proof. intros H. apply reading_ext. intros. apply H. Qed.

Lemma round_ok e st fus (old : Z -> Z -> Z) G answer ci : sane e -> tightly e st -> let g := move_net e st fus in let L i := answer i =? 1 in
  (forall c S, 0 <= c < nc e -> within (size e c) S -> move_table e st fus (old c) c S <= G c S) -> (forall c, 0 <= c < nc e -> G c 0 = move_table e st fus (old c) c 0) ->
  (forall L', cut (nnodes g) (c_si g) (c_it g) L + cliques (ncl g) (csize g) (members g) G L <= cut (nnodes g) (c_si g) (c_it g) L' + cliques (ncl g) (csize g) (members g) G L') ->
  (forall c, 0 <= c < nc e -> weight (size e c) (ci c) (picked (Z.to_nat (size e c)) (node e c) L) = G c (picked (Z.to_nat (size e c)) (node e c) L)) ->
  (forall c j, 0 <= c < nc e -> 0 <= j < size e c -> lab st (node e c j) = fus (node e c j) -> ci c j = 0) ->
  exists st', post_edit e (update e fus answer ci st) = Some st' /\ tightly e st' /\ (forall i, lab st' i = if L i then fus i else lab st i) /\ value e (lab st') <= value e (lab st).
Proof.
  intros W T g L A A0 B C D. set (st1 := update e fus answer ci st). set (y := fun i => if L i then fus i else lab st i).
  assert (WW := W). destruct WW as (HV & HC & WC).
  assert (Y : lab st1 = y) by reflexivity.
  assert (P : forall c, 0 <= c < nc e -> part (size e c) (node e c) L (picked (Z.to_nat (size e c)) (node e c) L)) by (intros c Hc; apply picked_part; destruct (WC c Hc); lia).
  assert (M : forall c, 0 <= c < nc e -> move_table e st fus (old c) c (picked (Z.to_nat (size e c)) (node e c) L) = cost e c (reading (Z.to_nat (size e c)) (node e c) y) - total (Z.to_nat (size e c)) (fun j => lam st c j (y (node e c j)))).
  { intros c Hc. exact (move_table_ok e st fus (old c) c L _ W Hc (P c Hc)). }
  assert (M0 : forall c, 0 <= c < nc e -> G c 0 = 0).
  { intros c Hc. rewrite A0 by exact Hc. rewrite (move_table_ok e st fus (old c) c (fun _ => false) 0 W Hc); [cbn beta iota; rewrite (T c Hc); apply Z.sub_diag|]. split; [apply within_0; destruct (WC c Hc); lia|intros; apply Z.bits_0]. }
  assert (Lam : forall c, 0 <= c < nc e -> total (Z.to_nat (size e c)) (fun j => lam st1 c j (lab st1 (node e c j))) =
    total (Z.to_nat (size e c)) (fun j => lam st c j (y (node e c j))) + weight (size e c) (ci c) (picked (Z.to_nat (size e c)) (node e c) L)).
  { intros c Hc. unfold weight. rewrite weigh_total, <- total_add. apply total_ext. intros j Hj. destruct (P c Hc) as [_ P2]. rewrite P2 by lia. unfold st1, update. cbn [lam lab]. unfold y, L. destruct (answer (node e c j) =? 1); [rewrite Z.eqb_refl; reflexivity|].
    destruct (Z.eqb_spec (lab st (node e c j)) (fus (node e c j))) as [E|]; [rewrite (D c j Hc ltac:(lia) E); lia|lia]. }
  assert (X := post_edit_ok e st1 W). destruct (post_edit e st1) as [st'|] eqn:E.
  - destruct X as (X1 & _ & X2 & _). exists st'. split; [reflexivity|]. split; [exact X2|]. split; [intros i; rewrite X1; reflexivity|]. rewrite X1, Y.
    (* the energy *)
    specialize (B (fun _ => false)).
    assert (K0 : cliques (ncl g) (csize g) (members g) G (fun _ => false) = 0).
    { unfold cliques. cbn [ncl csize members g move_net]. apply total_zero. intros c Hc. rewrite picked_none. apply M0. lia. }
    rewrite K0 in B.
    assert (V0 : value e (lab st) = total (Z.to_nat (nv e)) (fun i => stack e (lam st) i (lab st i))) by (apply tight_value; assumption).
    assert (V1 : value e y <= total (Z.to_nat (nv e)) (fun i => stack e (lam st) i (y i)) + cliques (ncl g) (csize g) (members g) G L).
    { rewrite stacks by exact W. unfold Spec.Sospd.value, cliques. cbn [ncl csize members g move_net]. rewrite <- Z.add_assoc, <- total_add. apply Z.add_le_mono_l. apply total_le. intros c Hc. specialize (M c ltac:(lia)).
      assert (Q := A c (picked (Z.to_nat (size e c)) (node e c) L) ltac:(lia) (proj1 (P c ltac:(lia)))). unfold g, move_net. cbn [csize members]. lia. }
    assert (S : total (Z.to_nat (nv e)) (fun i => stack e (lam st) i (y i)) + cut (nnodes g) (c_si g) (c_it g) (fun _ => false) = total (Z.to_nat (nv e)) (fun i => stack e (lam st) i (lab st i)) + cut (nnodes g) (c_si g) (c_it g) L).
    { unfold cut. cbn [nnodes g move_net]. rewrite <- !total_add. apply total_ext. intros i _. unfold g, move_net. cbn [c_si c_it]. assert (TD := terms_diff (height_diff e (lam st) i (lab st i) (fus i))). rewrite height_diff_ok in TD |- *. unfold y. destruct (L i); lia. }
    lia.
  - exfalso. destruct X as (c & Hc & X). rewrite Lam, C, Y in X by exact Hc. specialize (M c Hc). assert (Q := A c (picked (Z.to_nat (size e c)) (node e c) L) Hc (proj1 (P c Hc))). lia.
Qed.

(* the flow of the round *)
Lemma bound_told z ub g fixed energies G : wf g -> (forall c, 0 <= c < ncl g -> ub (csize g c) (energies c) = Done (G c) /\ submodular (csize g c) (G c)) ->
  forall (m : nat) b fl psi fl', 0 <= b -> b + Z.of_nat m <= ncl g -> bound_all z ub g fixed energies (zseq b m) fl psi = Done (Some fl') ->
  (forall c, ~ b <= c < b + Z.of_nat m -> cl fl' c = cl fl c) /\
  (forall c S, b <= c < b + Z.of_nat m -> within (csize g c) S -> told (csize g c) (alpha (cl fl' c)) (ci (cl fl' c)) S = freed (csize g c) (members g c) fixed (G c) S - freed (csize g c) (members g c) fixed (G c) 0).
Proof.
  intros (WN & WC & W) U. induction m as [|m IH]; intros b fl psi fl' Hb Hm E.
  - cbn in E. injection E as <-. split; [reflexivity|intros; lia].
  - rewrite zseq_S in E. destruct (W b ltac:(lia)) as [Hs HM]. destruct (U b ltac:(lia)) as [Ub Sb]. cbn [bound_all] in E.
    destruct (bound_ok z ub (csize g b) (members g b) fixed (energies b) (cl fl b) psi (phi_it fl) (Z.to_nat (nnodes g)) (G b) Hs ltac:(intros i Hi; specialize (HM i Hi); lia) Ub Sb) as (c' & p' & f' & E' & _ & _ & B3 & _). rewrite E' in E. cbn [bind] in E.
    apply IH in E; [|lia|lia]. destruct E as [I1 I2]. cbn [cl] in I1.
    assert (Q : cl fl' b = c') by (rewrite I1 by lia; unfold put; rewrite Z.eqb_refl; reflexivity). split.
    + intros c Hc. rewrite I1 by lia. unfold put. destruct (Z.eqb_spec c b); [lia|reflexivity].
    + intros c S Hc WS. destruct (Z.eq_dec c b) as [->|N]; [rewrite Q; apply B3; exact WS|apply I2; [lia|exact WS]].
Qed.
Lemma certificate_cliques g fl L : wf g -> all_normal g fl -> current g fl -> within_caps g fl -> closed_cut g fl L -> forall c, 0 <= c < ncl g -> alpha (cl fl c) (picked (Z.to_nat (csize g c)) (members g c) L) = 0.
Proof.
  intros WF N K C D c Hc. destruct (certificate g fl L WF N K C D) as [R _]. destruct WF as (WN & WC & W).
  assert (P : forall d, 0 <= d < ncl g -> 0 <= alpha (cl fl d) (picked (Z.to_nat (csize g d)) (members g d) L)).
  { intros d Hd. destruct (W d Hd) as [Hs _]. apply (N d Hd). apply picked_part. lia. }
  assert (Q : 0 <= cut (nnodes g) (fun j => c_si g j - phi_si fl j) (fun j => c_it g j - phi_it fl j) L).
  { unfold cut. rewrite <- (total_zero (Z.to_nat (nnodes g)) (fun _ => 0)) by reflexivity. apply total_le. intros j Hj. destruct (C j ltac:(lia)). destruct (L j); lia. }
  unfold residual, cliques in R.
  assert (X : alpha (cl fl c) (picked (Z.to_nat (csize g c)) (members g c) L) <= total (Z.to_nat (ncl g)) (fun c => alpha (cl fl c) (picked (Z.to_nat (csize g c)) (members g c) L))).
  { rewrite <- (total_one (Z.to_nat (ncl g)) (fun c => alpha (cl fl c) (picked (Z.to_nat (csize g c)) (members g c) L)) c) by lia. apply total_le. intros d Hd. destruct (Z.eqb_spec c d); [lia|apply P; lia]. }
  specialize (P c Hc). lia.
Qed.
Lemma freed_ldiff n nodes v G S : 0 <= n < 32 -> within n S -> freed n nodes (Some v) G S = G (Z.ldiff S (fixed_set n nodes v)).
Proof.
  intros Hn WS. destruct (fixed_spec n nodes v Hn) as [W F]. unfold freed.
  assert (W32 : within 32 (fixed_set n nodes v)) by (destruct W as [W1 W2]; split; [exact W1|]; eapply Z.lt_trans; [exact W2|]; apply Z.pow_lt_mono_r; lia).
  destruct (zero_marginal_ok n (fixed_set n nodes v) G ltac:(lia) W32) as [Z1 _]. apply Z1. exact WS.
Qed.
Lemma weight_pow n psi j : 0 <= j < n -> weight n psi (2 ^ j) = psi j.
Proof.
  intros Hj. replace (2 ^ j) with (Z.lxor 0 (2 ^ j)) by apply Z.lxor_0_l. rewrite weight_flip by exact Hj. rewrite weight_0, Z.bits_0. lia.
Qed.
Lemma fixed_still n nodes v G f x j : 1 <= n < 32 -> normal n f -> (forall S, within n S -> told n f x S = freed n nodes (Some v) G S - freed n nodes (Some v) G 0) -> 0 <= j < n -> v (nodes j) = true -> x j = 0.
Proof.
  intros Hn (_ & Pos & F0 & F1) T Hj V. destruct (fixed_spec n nodes v ltac:(lia)) as [WF F]. unfold told in T.
  assert (T0 := T (2 ^ j) (within_pow n j Hj)). rewrite weight_pow, !freed_ldiff in T0 by (first [lia|apply within_pow; lia|apply within_0; lia]).
  assert (E0 : Z.ldiff (2 ^ j) (fixed_set n nodes v) = Z.ldiff 0 (fixed_set n nodes v)).
  { apply bits_ext. intros i Hi. rewrite !Z.ldiff_spec, Z.bits_0, pow_spec by lia. destruct (Z.eqb_spec j i) as [<-|]; [rewrite F, V by lia; reflexivity|reflexivity]. }
  rewrite E0 in T0. assert (P0 := Pos (2 ^ j) (within_pow n j Hj)).
  set (V' := Z.lxor (whole n) (2 ^ j)). assert (WV : within n V') by (apply within_lxor; [lia|apply within_whole; lia|apply within_pow; exact Hj]).
  assert (T1 := T (whole n) (within_whole n ltac:(lia))). assert (T2 := T V' WV). unfold V' in T2 at 2. rewrite weight_flip, whole_spec in T2 by lia. destruct (Z.ltb_spec j n); [|lia].
  rewrite !freed_ldiff in T1, T2 by (first [lia|exact WV|apply within_whole; lia|apply within_0; lia]).
  assert (E1 : Z.ldiff V' (fixed_set n nodes v) = Z.ldiff (whole n) (fixed_set n nodes v)).
  { apply bits_ext. intros i Hi. unfold V'. rewrite !Z.ldiff_spec, Z.lxor_spec, pow_spec by lia. destruct (Z.eqb_spec j i) as [<-|]; [rewrite F, V by lia; rewrite !andb_false_r; reflexivity|rewrite xorb_false_r; reflexivity]. }
  rewrite E1 in T2. assert (P1 := Pos V' WV). rewrite F1 in T1. lia.
Qed.
Lemma flow_round z ub e st fus old G fl psi fl1 fl2 answer : sane e -> tightly e st -> let g := move_net e st fus in let L i := answer i =? 1 in
  (forall c, 0 <= c < nc e -> ub (size e c) (move_table e st fus (old c) c) = Done (G c) /\ submodular (size e c) (G c) /\ (forall S, within (size e c) S -> move_table e st fus (old c) c S <= G c S) /\ G c 0 = move_table e st fus (old c) c 0) ->
  (forall j, phi_si fl j = 0 /\ phi_it fl j = 0) ->
  bound_all z ub g (Some (fun i => lab st i =? fus i)) (fun c => move_table e st fus (old c) c) (zrange 0 (nc e)) fl psi = Done (Some fl1) -> evolves g (init_all g fl1) fl2 -> closed_cut g fl2 L ->
  exists st', post_edit e (update e fus answer (fun c => ci (cl fl2 c)) st) = Some st' /\ tightly e st' /\ (forall i, lab st' i = if L i then fus i else lab st i) /\ value e (lab st') <= value e (lab st).
Proof.
  intros W T g L U Z0 B V D. assert (WW := W). destruct WW as (HV & HC & WC). assert (WF : wf g) by (split; [exact HV|split; [exact HC|exact WC]]).
  set (v := fun i => lab st i =? fus i) in *. set (H := fun c => freed (size e c) (node e c) (Some v) (G c)).
  assert (U' : forall c, 0 <= c < ncl g -> ub (csize g c) (move_table e st fus (old c) c) = Done (G c) /\ submodular (csize g c) (G c)) by (intros c Hc; destruct (U c Hc) as (U1 & U2 & _); split; assumption).
  destruct (bound_net z ub g (Some v) (fun c => move_table e st fus (old c) c) G fl psi WF U' Z0) as (f & EB & N & K & _). change (zrange 0 (ncl g)) with (zrange 0 (nc e)) in EB. rewrite B in EB. injection EB as <-.
  destruct (init_all_ok g fl1 HV) as (I1 & I2 & _). assert (N' : all_normal g (init_all g fl1)) by (unfold all_normal; rewrite I1; exact N). assert (K' : current g (init_all g fl1)) by (unfold current; rewrite I1; exact K).
  destruct (evolves_ok g _ _ WF V N' K' I2) as (J1 & J2 & J3 & _ & J5).
  destruct (bound_told z ub g (Some v) (fun c => move_table e st fus (old c) c) G WF U' (Z.to_nat (nc e)) 0 fl psi fl1 ltac:(lia) ltac:(cbn; lia) B) as [_ BT].
  assert (Told : forall c S, 0 <= c < nc e -> within (size e c) S -> told (size e c) (alpha (cl fl2 c)) (ci (cl fl2 c)) S = H c S - H c 0).
  { intros c S Hc WS. assert (X := J5 c S Hc WS). rewrite I1 in X. cbn [csize g move_net] in X. rewrite X. apply (BT c S); [lia|exact WS]. }
  assert (Same : forall c S, 0 <= c < nc e -> within (size e c) S -> move_table e st fus (old c) c S = move_table e st fus (old c) c (Z.ldiff S (fixed_set (size e c) (node e c) v))).
  { intros c S Hc WS. destruct (WC c Hc) as [Hs _]. assert (WL : within (size e c) (Z.ldiff S (fixed_set (size e c) (node e c) v))) by (apply within_ldiff; [lia|exact WS]). destruct (fixed_spec (size e c) (node e c) v ltac:(lia)) as [_ F].
    unfold move_table. cbv zeta. rewrite !GrayCode.subtract_linear_spec, !GrayCode.energy_table_spec by (exact WS || exact WL || lia).
    assert (X : forall j, 0 <= j < size e c -> lab st (node e c j) = fus (node e c j) \/ Z.testbit (Z.ldiff S (fixed_set (size e c) (node e c) v)) j = Z.testbit S j).
    { intros j Hj. rewrite Z.ldiff_spec, F by exact Hj. unfold v. destruct (Z.eqb_spec (lab st (node e c j)) (fus (node e c j))); [left; assumption|right; cbn; apply andb_true_r]. }
    f_equal; [f_equal|f_equal]; apply map_ext_in; intros j Hj; apply in_zrange in Hj; unfold GrayCode.choice; (destruct (X j ltac:(lia)) as [E|E]; [rewrite E; destruct (Z.testbit S j), (Z.testbit (Z.ldiff S _) j); reflexivity|rewrite E; reflexivity]). }
  assert (R0 : forall c, 0 <= c < nc e -> H c 0 = move_table e st fus (old c) c 0 /\ H c 0 = 0).
  { intros c Hc. destruct (WC c Hc) as [Hs _]. destruct (U c Hc) as (_ & _ & _ & U4). unfold H. rewrite freed_ldiff by (first [lia|apply within_0; lia]). rewrite Z.ldiff_0_l, U4. split; [reflexivity|].
    rewrite (move_table_ok e st fus (old c) c (fun _ => false) 0 W Hc); [cbn beta iota; rewrite (T c Hc); apply Z.sub_diag|]. split; [apply within_0; lia|intros; apply Z.bits_0]. }
  assert (CC := certificate_cliques g fl2 L WF J1 J2 J3 D).
  assert (MIN := minimum z ub g (Some v) (fun c => move_table e st fus (old c) c) G fl psi fl1 fl2 L WF U' Z0 B V D). cbv zeta in MIN.
  apply (round_ok e st fus old H answer (fun c => ci (cl fl2 c)) W T).
  - intros c S Hc WS. destruct (WC c Hc) as [Hs _]. destruct (U c Hc) as (_ & _ & U3 & _). rewrite (Same c S Hc WS). unfold H. rewrite freed_ldiff by (exact WS || lia). apply U3. apply within_ldiff; [lia|exact WS].
  - intros c Hc. apply R0. exact Hc.
  - exact MIN.
  - intros c Hc. destruct (WC c Hc) as [Hs _]. assert (P := picked_part (size e c) (node e c) L ltac:(lia)). assert (X := Told c _ Hc (proj1 P)). unfold told in X. assert (Y := CC c Hc). cbn [csize members g move_net] in Y. fold L. rewrite Y in X. destruct (R0 c Hc) as [_ R]. rewrite R in X. lia.
  - intros c j Hc Hj E. destruct (WC c Hc) as [Hs _]. apply (fixed_still (size e c) (node e c) v (G c) (alpha (cl fl2 c))); [exact Hs|exact (J1 c Hc)|intros S WS; exact (Told c S Hc WS)|exact Hj|unfold v; rewrite E; apply Z.eqb_refl].
Qed.
