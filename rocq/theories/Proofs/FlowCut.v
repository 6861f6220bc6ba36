From Coq Require Import ZArith List Bool Lia.
From Verif Require Import Lib.Grid Model.Submodular Spec.Submodular Model.Clique Spec.Clique Model.Flow Spec.Flow Proofs.Submodular Proofs.SubmodularLinear Proofs.SubmodularNormal Proofs.Clique Proofs.CliqueTight Proofs.CliqueBound Proofs.FlowShortcut Proofs.Flow Spec.FlowPath.
Import ListNotations.
Open Scope Z_scope.

Lemma pairs_filter {A B} (R : A -> A -> Prop) (Q : B -> B -> Prop) (f : A -> bool) (h : A -> B) l : (forall a b, f a = true -> f b = true -> R a b -> Q (h a) (h b)) -> ForallOrdPairs R l -> ForallOrdPairs Q (map h (filter f l)).
Proof.
  intros I O. induction O as [|a l H O IH]; [constructor|]. cbn [filter]. destruct (f a) eqn:E; [|exact IH]. cbn [map]. constructor; [|exact IH].
  rewrite Forall_forall in *. intros b Hb. apply in_map_iff in Hb. destruct Hb as (c & <- & Hc). apply filter_In in Hc. apply I; [exact E|apply Hc|apply H; apply Hc].
Qed.
Lemma moves_moved g d c l S : moves g d c l S = moved d (map (fun p => ends g (fst p) (snd p)) (filter (fun p => clique_of (snd p) =? c) l)) S.
Proof.
  induction l as [|p l IH]; [reflexivity|]. cbn [moves fold_right filter] in *. fold (moves g d c l S). unfold move. destruct (clique_of (snd p) =? c); [|lia].
  cbn [map moved fold_right]. fold (moved d (map (fun p => ends g (fst p) (snd p)) (filter (fun p => clique_of (snd p) =? c) l)) S). lia.
Qed.
Lemma path_normal g fl fl' d l : wf g -> 0 < d -> all_normal g fl -> (forall p, In p l -> proper g (snd p) /\ exists k, lets g fl p k /\ d <= k) -> no_shortcut g fl l ->
  (forall c S, 0 <= c < ncl g -> within (csize g c) S -> alpha (cl fl' c) S = alpha (cl fl c) S + moves g d c l S) -> all_normal g fl'.
Proof.
  intros (_ & _ & W) Hd N P NS A c Hc. destruct (W c Hc) as [Hs _]. set (l' := map (fun p => ends g (fst p) (snd p)) (filter (fun p => clique_of (snd p) =? c) l)).
  apply (several (csize g c) d ltac:(lia) Hd l' (alpha (cl fl c))); [apply N; exact Hc| | |intros S WS; rewrite A by assumption; rewrite moves_moved; reflexivity].
  - apply Forall_forall. intros e He. apply in_map_iff in He. destruct He as (p & <- & Hp). apply filter_In in Hp. destruct Hp as [Hp E]. apply Z.eqb_eq in E. destruct (P p Hp) as [Pp (k & (K & _) & Hk)].
    destruct (ends_ok g (fst p) (snd p) Pp) as (Hu & Hv & _). cbv zeta in *. rewrite E in *. split; [exact Hu|]. split; [exact Hv|]. intros S HS. specialize (K S HS). lia.
  - unfold l'. apply (pairs_filter (fun p q => clique_of (snd p) = clique_of (snd q) ->
    capacity (csize g (clique_of (snd p))) (alpha (cl fl (clique_of (snd p)))) (fst (ends g (fst p) (snd p))) (snd (ends g (fst q) (snd q))) 0)); [|exact NS].
    intros p q Ep Eq R. apply Z.eqb_eq in Ep, Eq. specialize (R ltac:(congruence)). rewrite Ep in R. destruct R as (_ & S & HS & E). exists S. split; [exact HS|exact E].
Qed.
Lemma way_proper g parent parc fwd a ls lt p : proper g a -> on_tree g parent parc ls -> on_tree g parent parc lt -> In p (way fwd a parc ls lt) -> proper g (snd p).
Proof.
  intros P Ts Tt I. unfold way in I. rewrite in_app_iff, <- in_rev in I. cbn [In] in I. rewrite !in_map_iff in I. destruct I as [(z & <- & I)|[<-|(z & <- & I)]]; cbn [snd]; [apply Ts|exact P|apply Tt]; exact I.
Qed.

Lemma evolves_ok g fl fl' : wf g -> evolves g fl fl' -> all_normal g fl -> current g fl -> within_caps g fl ->
  all_normal g fl' /\ current g fl' /\ within_caps g fl' /\ (exists k, 0 <= k /\ forall L, residual g fl L = residual g fl' L + k) /\
  (forall c S, 0 <= c < ncl g -> within (csize g c) S -> told (csize g c) (alpha (cl fl' c)) (ci (cl fl' c)) S = told (csize g c) (alpha (cl fl c)) (ci (cl fl c)) S).
Proof.
  intros W E. induction E as [fl|fl fl' fl'' fuel top parent parc fwd a ls xs lt xt R P Cs Ct Ts Tt Fs Ft NS A _ IH]; intros N K C.
  - split; [exact N|]. split; [exact K|]. split; [exact C|]. split; [exists 0; split; [lia|intros; lia]|reflexivity].
  - destruct (augment_ok fuel top g parent parc fwd a fl ls xs lt xt W R P Cs Ct Ts Tt Fs Ft) as (b & r & Er & B1 & B2 & B3 & _ & M). rewrite A in Er. injection Er as <-.
    destruct M as (Hb & Hs & Ht & M1 & M2 & M3 & M4 & M5).
    assert (N' : all_normal g fl'). { apply (path_normal g fl fl' b (way fwd a parc ls lt)); auto; [|intros c S Hc WS; apply M5; assumption]. intros p Ip. split; [exact (way_proper g parent parc fwd a ls lt p P Ts Tt Ip)|apply B1; exact Ip]. }
    assert (C' : within_caps g fl'). { intros j Hj. destruct (C j Hj). rewrite M2, M3. destruct (Z.eqb_spec j xs), (Z.eqb_spec j xt); subst; lia. }
    destruct (IH N' (M4 K) C') as (I1 & I2 & I3 & (k & Ik & I4) & I5). split; [exact I1|]. split; [exact I2|]. split; [exact I3|]. split.
    + exists (k + b). split; [lia|]. intros L. specialize (M1 L). specialize (I4 L). lia.
    + intros c S Hc WS. rewrite I5 by assumption. apply M5; assumption.
Qed.

(* the certificate *)
Lemma tight_union n f S : 0 <= n -> normal n f -> within n S -> (forall u, 0 <= u < n -> inside S u -> exists T, within n T /\ f T = 0 /\ inside T u /\ subset T S) -> f S = 0.
Proof.
  intros Hn (Sub & Pos & F0 & F1) W H.
  assert (G : forall k, Z.of_nat k <= n -> exists U, within n U /\ f U = 0 /\ subset U S /\ forall u, 0 <= u < Z.of_nat k -> inside S u -> inside U u).
  { induction k as [|k IH]; intros Hk.
    - exists 0. split; [apply within_0; lia|]. split; [exact F0|]. split; [intros i Hi X; unfold inside in X; rewrite Z.bits_0 in X; discriminate|]. intros; lia.
    - destruct IH as (U & U1 & U2 & U3 & U4); [lia|]. destruct (Z.testbit S (Z.of_nat k)) eqn:E.
      + destruct (H (Z.of_nat k) ltac:(lia) E) as (T & T1 & T2 & T3 & T4). exists (Z.lor U T). assert (WL := within_lor n U T Hn U1 T1). split; [exact WL|].
        assert (X := Sub U T U1 T1). assert (P1 := Pos _ WL). assert (P2 := Pos _ (within_land n U T Hn U1)). split; [lia|]. unfold subset, inside in *. split.
        * intros i Hi X'. rewrite Z.lor_spec in X'. apply orb_true_iff in X'. destruct X'; auto.
        * intros u Hu Iu. rewrite Z.lor_spec. apply orb_true_iff. destruct (Z.eq_dec u (Z.of_nat k)) as [->|]; [right; exact T3|left; apply U4; [lia|exact Iu]].
      + exists U. split; [exact U1|]. split; [exact U2|]. split; [exact U3|]. intros u Hu Iu. destruct (Z.eq_dec u (Z.of_nat k)) as [->|]; [unfold inside in Iu; congruence|apply U4; [lia|exact Iu]]. }
  destruct (G (Z.to_nat n) ltac:(lia)) as (U & U1 & U2 & U3 & U4). replace S with U; [exact U2|]. apply bits_ext. intros i Hi. destruct (Z.testbit U i) eqn:EU, (Z.testbit S i) eqn:ES; try reflexivity.
  - rewrite (U3 i Hi EU) in ES. discriminate.
  - destruct (Z_lt_le_dec i n); [|rewrite (bit_high n) in ES by assumption; discriminate]. assert (X := U4 i ltac:(lia) ES). unfold inside in X. congruence.
Qed.
Lemma certificate g fl L : wf g -> all_normal g fl -> current g fl -> within_caps g fl -> closed_cut g fl L -> residual g fl L = 0 /\ forall L', 0 <= residual g fl L'.
Proof.
  intros (WN & WC & W) N K C [D1 D2]. split.
  - unfold residual, cut, cliques. rewrite !total_zero; [reflexivity| |].
    + intros c Hc. destruct (W c ltac:(lia)) as [Hs HM]. destruct (picked_part (csize g c) (members g c) L ltac:(lia)) as [P1 P2]. set (S := picked _ _ _) in *. clearbody S.
      assert (Nc := N c ltac:(lia)). apply (tight_union (csize g c)); [lia|exact Nc|exact P1|]. intros u Hu Iu.
      destruct (K c ltac:(lia)) as (m & Em). destruct (tight_ok (csize g c) (alpha (cl fl c)) m ltac:(lia) Nc) as (M & EM & LM & _). rewrite Em in EM. assert (Q : tight (cl fl c) = M) by congruence.
      destruct (LM u Hu) as (X1 & X2 & X3 & X4). exists (M u). split; [exact X1|]. split; [exact X2|]. split; [exact X3|]. intros v Hv Iv. unfold inside in *.
      destruct (Z_lt_le_dec v (csize g c)); [|rewrite (bit_high (csize g c)) in Iv by assumption; discriminate]. rewrite P2 in * by lia. destruct (L (members g c v)) eqn:E; [reflexivity|exfalso].
      assert (Y := D2 c u v ltac:(lia) Hu ltac:(lia) Iu E). unfold nonzero_capacity in Y. rewrite land_pow, negb_involutive, Q in Y by lia. congruence.
    + intros j Hj. specialize (D1 j ltac:(lia)). destruct (L j); lia.
  - intros L'. unfold residual, cut, cliques. assert (A : total (Z.to_nat (nnodes g)) (fun _ => 0) = 0) by (apply total_zero; reflexivity). assert (B : total (Z.to_nat (ncl g)) (fun _ => 0) = 0) by (apply total_zero; reflexivity).
    assert (A' := total_le (Z.to_nat (nnodes g)) (fun _ => 0) (fun j => if L' j then c_it g j - phi_it fl j else c_si g j - phi_si fl j)). assert (B' := total_le (Z.to_nat (ncl g)) (fun _ => 0) (fun c => alpha (cl fl c) (picked (Z.to_nat (csize g c)) (members g c) L'))).
    rewrite A in A'. rewrite B in B'. apply Z.add_nonneg_nonneg; [apply A'|apply B'].
    + intros j Hj. destruct (C j ltac:(lia)). destruct (L' j); lia.
    + intros c Hc. destruct (W c ltac:(lia)) as [Hs _]. apply (N c ltac:(lia)). apply picked_part. lia.
Qed.

(* init *)
Lemma init_node_ok g fl i : 0 <= i < nnodes g -> cl (init_node g fl i) = cl fl /\ (forall j, j <> i -> phi_si (init_node g fl i) j = phi_si fl j /\ phi_it (init_node g fl i) j = phi_it fl j) /\
  phi_si (init_node g fl i) i <= c_si g i /\ phi_it (init_node g fl i) i <= c_it g i /\ (exists k, forall L, residual g fl L = residual g (init_node g fl i) L + k).
Proof.
  intros Hi. unfold init_node. destruct (saturate_ok (c_si g i) (c_it g i) (phi_si fl i) (phi_it fl i)) as (p & q & s & E & A & B & C & _). rewrite E. cbn [cl phi_si phi_it].
  split; [reflexivity|]. split; [intros j N; unfold put; destruct (Z.eqb_spec j i); [contradiction|split; reflexivity]|]. unfold put at 1 2. rewrite Z.eqb_refl. split; [exact B|]. split; [exact C|].
  exists (p - phi_si fl i). intros L. unfold residual. cbn [cl phi_si phi_it]. replace q with (phi_it fl i + (p - phi_si fl i)) by lia. assert (X : exists d, p = phi_si fl i + d) by (exists (p - phi_si fl i); lia). destruct X as (d & ->). replace (phi_si fl i + d - phi_si fl i) with d by lia.
  rewrite cut_put_si, cut_put_it by exact Hi. destruct (L i); lia.
Qed.
Lemma init_all_ok g fl : 0 <= nnodes g -> cl (init_all g fl) = cl fl /\ within_caps g (init_all g fl) /\ exists k, forall L, residual g fl L = residual g (init_all g fl) L + k.
Proof.
  intros HN. unfold init_all, within_caps, zrange. enough (G : forall m, Z.of_nat m <= nnodes g -> let r := fold_left (init_node g) (zseq 0 m) fl in
    cl r = cl fl /\ (forall j, 0 <= j < Z.of_nat m -> phi_si r j <= c_si g j /\ phi_it r j <= c_it g j) /\ exists k, forall L, residual g fl L = residual g r L + k).
  { specialize (G (Z.to_nat (nnodes g)) ltac:(lia)). cbv zeta in G. rewrite Z2Nat.id in G by lia. exact G. }
  induction m as [|m IH]; intros Hm; cbv zeta in *; [split; [reflexivity|]; split; [intros; lia|exists 0; intros; cbn; lia]|]. rewrite zseq_last, fold_left_app. cbn [fold_left]. destruct IH as (I1 & I2 & k & I3); [lia|].
  destruct (init_node_ok g (fold_left (init_node g) (zseq 0 m) fl) (0 + Z.of_nat m) ltac:(lia)) as (A & B & C & D & k' & E). split; [congruence|]. split.
  - intros j Hj. destruct (Z.eq_dec j (0 + Z.of_nat m)) as [->|X]; [split; assumption|]. destruct (B j X) as [-> ->]. apply I2. lia.
  - exists (k + k'). intros L. rewrite I3, E. lia.
Qed.

(* the bound of all cliques *)
Lemma cut_labelled N si it phi L : cut N si (fun j => it j - phi j) L = cut N si it L - labelled (Z.to_nat N) L phi.
Proof.
  unfold cut, labelled. induction (Z.to_nat N) as [|m IH]; cbn [total]; [reflexivity|]. rewrite IH. destruct (L (Z.of_nat m)); lia.
Qed.
Lemma bound_tight z ub n nodes fixed e c psi phi c' p' f' : bound_clique z ub n nodes fixed e c psi phi = Done (Some (c', p', f')) -> min_tight n (alpha c') (tight c) = Done (tight c').
Proof.
  unfold bound_clique. destruct (ub n e) as [g| | |]; cbn [bind]; try discriminate. destruct (normalize _ _ _ _) as [[[h q]|]| | |]; cbn [bind]; try discriminate.
  destruct (min_tight n h (tight c)) as [m| | |] eqn:E; cbn [bind]; try discriminate. intros H. injection H as <- _ _. exact E.
Qed.
Lemma bound_all_ok z ub g fixed energies G : wf g -> (forall c, 0 <= c < ncl g -> ub (csize g c) (energies c) = Done (G c) /\ submodular (csize g c) (G c)) ->
  let H c := freed (csize g c) (members g c) fixed (G c) in
  forall (m : nat) b fl psi, 0 <= b -> b + Z.of_nat m <= ncl g -> exists fl', bound_all z ub g fixed energies (zseq b m) fl psi = Done (Some fl') /\
  phi_si fl' = phi_si fl /\ (forall c, ~ b <= c < b + Z.of_nat m -> cl fl' c = cl fl c) /\
  (forall c, b <= c < b + Z.of_nat m -> normal (csize g c) (alpha (cl fl' c)) /\ exists t, min_tight (csize g c) (alpha (cl fl' c)) t = Done (tight (cl fl' c))) /\
  (forall L, total m (fun i => alpha (cl fl' (b + i)) (picked (Z.to_nat (csize g (b + i))) (members g (b + i)) L)) - labelled (Z.to_nat (nnodes g)) L (phi_it fl') =
             total m (fun i => H (b + i) (picked (Z.to_nat (csize g (b + i))) (members g (b + i)) L) - H (b + i) 0) - labelled (Z.to_nat (nnodes g)) L (phi_it fl)).
Proof.
  intros (WN & WC & W) U H. induction m as [|m IH]; intros b fl psi Hb Hm.
  - exists fl. split; [reflexivity|]. split; [reflexivity|]. split; [reflexivity|]. split; [intros; lia|]. intros. reflexivity.
  - rewrite zseq_S. destruct (W b ltac:(lia)) as [Hs HM]. destruct (U b ltac:(lia)) as [Ub Sb].
    destruct (bound_ok z ub (csize g b) (members g b) fixed (energies b) (cl fl b) psi (phi_it fl) (Z.to_nat (nnodes g)) (G b) Hs ltac:(intros i Hi; specialize (HM i Hi); lia) Ub Sb) as (c' & p' & f' & E & B1 & _ & _ & B4 & _).
    assert (BT := bound_tight _ _ _ _ _ _ _ _ _ _ _ _ E).
    destruct (IH (b + 1) {| cl := put (cl fl) b c'; phi_si := phi_si fl; phi_it := f' |} p' ltac:(lia) ltac:(lia)) as (fl' & I1 & I2 & I3 & I4 & I5). exists fl'. cbn [bound_all]. rewrite E. cbn [bind]. cbn [cl phi_si phi_it] in *.
    assert (Q : cl fl' b = c') by (rewrite I3 by lia; unfold put; rewrite Z.eqb_refl; reflexivity).
    split; [exact I1|]. split; [exact I2|]. split; [|split].
    + intros c Hc. rewrite I3 by lia. unfold put. destruct (Z.eqb_spec c b); [lia|reflexivity].
    + intros c Hc. destruct (Z.eq_dec c b) as [->|N]; [rewrite Q; split; [exact B1|exists (tight (cl fl b)); exact BT]|apply I4; lia].
    + intros L. specialize (I5 L). assert (X := B4 L _ (picked_part (csize g b) (members g b) L ltac:(lia))). fold (H b) in X.
      assert (T : forall x : Z -> Z, total (S m) (fun i => x (b + i)) = x b + total m (fun i => x (b + 1 + i))).
      { intros x. clear. induction m as [|m IH]; [cbn [total]; rewrite Z.add_0_r; lia|]. cbn [total] in *. rewrite IH. replace (b + Z.of_nat (S m)) with (b + 1 + Z.of_nat m) by lia. lia. }
      rewrite (T (fun c => alpha (cl fl' c) (picked (Z.to_nat (csize g c)) (members g c) L))), (T (fun c => H c (picked (Z.to_nat (csize g c)) (members g c) L) - H c 0)), Q. cbn [cl] in *. lia.
Qed.
Lemma bound_net z ub g fixed energies G fl psi : wf g -> (forall c, 0 <= c < ncl g -> ub (csize g c) (energies c) = Done (G c) /\ submodular (csize g c) (G c)) ->
  (forall j, phi_si fl j = 0 /\ phi_it fl j = 0) -> let H c := freed (csize g c) (members g c) fixed (G c) in
  exists fl', bound_all z ub g fixed energies (zrange 0 (ncl g)) fl psi = Done (Some fl') /\ all_normal g fl' /\ current g fl' /\
  exists k, forall L, residual g fl' L = cut (nnodes g) (c_si g) (c_it g) L + cliques (ncl g) (csize g) (members g) H L - k.
Proof.
  intros WF U Z0 H. destruct (bound_all_ok z ub g fixed energies G WF U (Z.to_nat (ncl g)) 0 fl psi ltac:(lia) ltac:(destruct WF as (_ & ? & _); lia)) as (fl' & E & A1 & A2 & A3 & A4).
  destruct WF as (WN & WC & W). exists fl'. split; [exact E|]. split; [intros c Hc; apply A3; lia|]. split; [intros c Hc; apply A3; lia|]. exists (total (Z.to_nat (ncl g)) (fun c => H c 0)). intros L. specialize (A4 L).
  cbv beta in A4. unfold residual. rewrite cut_labelled. unfold cliques.
  assert (L0 : labelled (Z.to_nat (nnodes g)) L (phi_it fl) = 0) by (unfold labelled; apply total_zero; intros j _; destruct (Z0 j) as [_ ->]; destruct (L j); reflexivity). rewrite L0 in A4. clear L0.
  rewrite (total_ext _ (fun i => alpha (cl fl' (0 + i)) _) (fun c => alpha (cl fl' c) (picked (Z.to_nat (csize g c)) (members g c) L))) in A4 by (intros; rewrite Z.add_0_l; reflexivity).
  assert (S : total (Z.to_nat (ncl g)) (fun i => H (0 + i) (picked (Z.to_nat (csize g (0 + i))) (members g (0 + i)) L) - H (0 + i) 0) =
    total (Z.to_nat (ncl g)) (fun c => H c (picked (Z.to_nat (csize g c)) (members g c) L)) - total (Z.to_nat (ncl g)) (fun c => H c 0)).
  { clear. induction (Z.to_nat (ncl g)) as [|m IH]; cbn [total]; [reflexivity|]. rewrite IH. rewrite Z.add_0_l. lia. }
  unfold H in S |- *. cbv beta in S |- *. rewrite S in A4. assert (C : cut (nnodes g) (fun j => c_si g j - phi_si fl' j) (c_it g) L = cut (nnodes g) (c_si g) (c_it g) L).
  { unfold cut. apply total_ext. intros j _. rewrite A1. destruct (Z0 j) as [-> _]. destruct (L j); lia. }
  rewrite C. lia.
Qed.
Lemma minimum z ub g fixed energies G fl psi fl1 fl2 L : wf g -> (forall c, 0 <= c < ncl g -> ub (csize g c) (energies c) = Done (G c) /\ submodular (csize g c) (G c)) -> (forall j, phi_si fl j = 0 /\ phi_it fl j = 0) ->
  bound_all z ub g fixed energies (zrange 0 (ncl g)) fl psi = Done (Some fl1) -> evolves g (init_all g fl1) fl2 -> closed_cut g fl2 L ->
  let E L := cut (nnodes g) (c_si g) (c_it g) L + cliques (ncl g) (csize g) (members g) (fun c => freed (csize g c) (members g c) fixed (G c)) L in
  forall L', E L <= E L'.
Proof.
  intros WF U Z0 B V D. destruct (bound_net z ub g fixed energies G fl psi WF U Z0) as (f & EB & N & K & k & R). rewrite B in EB. injection EB as <-.
  destruct (init_all_ok g fl1 (proj1 WF)) as (I1 & I2 & k1 & I3). assert (N' : all_normal g (init_all g fl1)) by (unfold all_normal; rewrite I1; exact N). assert (K' : current g (init_all g fl1)) by (unfold current; rewrite I1; exact K).
  destruct (evolves_ok g _ _ WF V N' K' I2) as (J1 & J2 & J3 & (k2 & Hk2 & J4) & _). destruct (certificate g fl2 L WF J1 J2 J3 D) as [C1 C2]. cbv zeta. intros L'. specialize (C2 L').
  assert (R1 := R L). assert (R2 := R L'). assert (Q1 := I3 L). assert (Q2 := I3 L'). assert (S1 := J4 L). assert (S2 := J4 L'). cbv zeta beta in *.
  match type of R1 with _ = ?x + ?y - _ => match type of R2 with _ = ?x' + ?y' - _ => change (x + y <= x' + y'); set (X := x) in *; set (Y := y) in *; set (X' := x') in *; set (Y' := y') in * end end. lia.
Qed.

(* energies *)
Lemma part_one n nodes L A B : part n nodes L A -> part n nodes L B -> A = B.
Proof.
  intros [A1 A2] [B1 B2]. apply bits_ext. intros i Hi. destruct (Z_lt_le_dec i n); [rewrite A2, B2 by lia; reflexivity|rewrite !(bit_high n) by assumption; reflexivity].
Qed.
Lemma assignment_fixed n nodes labels : assignment n nodes labels = fixed_set n nodes (fun j => labels j =? 1).
Proof.
  unfold assignment, fixed_set, zrange. induction (Z.to_nat n) as [|k IH]; [reflexivity|]. rewrite zseq_last, !fold_left_app. cbn [fold_left]. rewrite IH, Z.shiftl_mul_pow2 by lia.
  destruct (labels (nodes (0 + Z.of_nat k)) =? 1); cbn [Z.b2z]; [rewrite Z.mul_1_l; reflexivity|]. rewrite Z.mul_0_l, Z.lor_0_r. reflexivity.
Qed.
Lemma fold_total (x : Z -> Z) m e : fold_left (fun e c => e + x c) (zseq 0 m) e = e + total m x.
Proof. induction m as [|m IH]; [cbn; lia|]. rewrite zseq_last, fold_left_app. cbn [fold_left total]. rewrite IH, Z.add_0_l. lia. Qed.
Lemma compute_energy_ok g constant tables labels : (forall c, 0 <= c < ncl g -> 0 <= csize g c < 32) -> compute_energy g constant tables labels =
  constant + cut (nnodes g) (c_si g) (c_it g) (fun j => labels j =? 1) + cliques (ncl g) (csize g) (members g) tables (fun j => labels j =? 1).
Proof.
  intros W. unfold compute_energy, cut, cliques, zrange. rewrite (fold_total (fun c => tables c _)), (fold_left_ext _ (fun e i => e + (if labels i =? 1 then c_it g i else c_si g i))) by (intros; destruct (_ =? 1); reflexivity).
  rewrite (fold_total (fun i => if labels i =? 1 then c_it g i else c_si g i)). f_equal. apply total_ext. intros c Hc. f_equal. specialize (W c ltac:(lia)). rewrite assignment_fixed. apply (part_one (csize g c) (members g c) (fun j => labels j =? 1)); [apply fixed_spec; exact W|apply picked_part; exact W].
Qed.

(* arcs *)
Lemma arcs_ok size : forall fuel cs i, (forall c, In c cs -> 1 <= size c) -> match cs with [] => i = 0 | c :: _ => 0 <= i < size c end ->
  (length (all_arcs size cs) < fuel + Z.to_nat i)%nat ->
  arcs_from fuel size cs i = Done (match cs with [] => [] | c :: rest => map (pair c) (zrange i (size c - i)) ++ all_arcs size rest end).
Proof.
  induction fuel as [|m IH]; intros cs i P I F.
  - exfalso. destruct cs as [|c rest]; [cbn in F; lia|]. unfold all_arcs in F. cbn [flat_map] in F. rewrite app_length, map_length in F. unfold zrange at 1 in F. rewrite zseq_length in F. lia.
  - destruct cs as [|c rest]; [reflexivity|]. cbn [arcs_from]. cbv zeta.
    assert (U : zrange i (size c - i) = i :: zrange (i + 1) (size c - (i + 1))) by (unfold zrange; replace (Z.to_nat (size c - i)) with (Datatypes.S (Z.to_nat (size c - (i + 1)))) by lia; apply zseq_S).
    rewrite U. cbn [map app]. unfold all_arcs in F. cbn [flat_map] in F. rewrite app_length, map_length in F. unfold zrange at 1 in F. rewrite zseq_length in F. fold (all_arcs size rest) in F.
    destruct (Z.eqb_spec (i + 1) (size c)) as [E|E].
    + rewrite IH; [|intros d D; apply P; right; exact D|destruct rest as [|d rest]; [reflexivity|specialize (P d (or_intror (or_introl eq_refl))); lia]|lia]. cbn [bind]. replace (size c - (i + 1)) with 0 by lia. cbn [map app].
      destruct rest as [|d rest]; [reflexivity|]. rewrite Z.sub_0_r. reflexivity.
    + rewrite IH; [|exact P|lia|]; [reflexivity|]. unfold all_arcs. cbn [flat_map]. rewrite app_length, map_length. unfold zrange at 1. rewrite zseq_length. fold (all_arcs size rest). lia.
Qed.
Lemma arcs_all size cs fuel : (forall c, In c cs -> 1 <= size c) -> (length (all_arcs size cs) < fuel)%nat -> arcs_from fuel size cs 0 = Done (all_arcs size cs).
Proof.
  intros P F. rewrite (arcs_ok size fuel cs 0 P); [|destruct cs as [|c cs]; [reflexivity|specialize (P c (or_introl eq_refl)); lia]|lia].
  destruct cs as [|c cs]; [reflexivity|]. rewrite Z.sub_0_r. reflexivity.
Qed.
Lemma reverse_ok g a : wf g -> proper g a -> (forall i j, 0 <= i < csize g (clique_of a) -> 0 <= j < csize g (clique_of a) -> members g (clique_of a) i = members g (clique_of a) j -> i = j) ->
  proper g (reverse g a) /\ source (reverse g a) = target g a /\ target g (reverse g a) = source a /\ clique_of (reverse g a) = clique_of a /\ reverse g (reverse g a) = a /\ (forall d, ends g d (reverse g a) = ends g (negb d) a).
Proof.
  intros W (P1 & P2 & P3 & P4) D. destruct a as [[s c] i]. unfold clique_of, source, target in *. cbn [fst snd] in *. destruct (index_ok (csize g c) (members g c) s P3) as [J1 J2].
  assert (P3' : exists k, 0 <= k < csize g c /\ members g c k = members g c i) by (exists i; split; [exact P2|reflexivity]). destruct (index_ok (csize g c) (members g c) (members g c i) P3') as [K1 K2]. apply D in K2; [|assumption..].
  unfold reverse, proper, ends, clique_of, source, target. cbn [fst snd]. rewrite J2, K2. repeat split; try tauto; try lia; try congruence. intros []; reflexivity.
Qed.
