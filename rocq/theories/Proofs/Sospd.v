From Coq Require Import ZArith List Bool Lia.
From Verif Require Import Lib.Grid Spec.Submodular Spec.Clique Model.Flow Spec.Flow Proofs.Flow Proofs.FlowCut Proofs.Submodular Proofs.SubmodularLinear Proofs.SubmodularNormal Model.Sospd Spec.Sospd.
From Verif Require Proofs.GrayCode Model.PrimalDual Spec.FusionTerms.
Import ListNotations.
Open Scope Z_scope.

Lemma buffer_reading k nodes x : buffer k nodes x = reading (Z.to_nat k) nodes x.
Proof. unfold buffer, zrange. induction (Z.to_nat k) as [|m IH]; [reflexivity|]. rewrite zseq_last, map_app, IH. cbn [map reading]. rewrite Z.add_0_l. reflexivity. Qed.
Lemma reading_ext k nodes x y : (forall i, 0 <= i < Z.of_nat k -> x (nodes i) = y (nodes i)) -> reading k nodes x = reading k nodes y.
Proof. induction k as [|m IH]; intros H; [reflexivity|]. cbn [reading]. rewrite IH by (intros; apply H; lia). rewrite H by lia. reflexivity. Qed.
Lemma energy_value e x : energy_of e x = value e x.
Proof.
  unfold energy_of, value, zrange. rewrite (fold_total (fun i => un e i (x i))), (fold_total (fun c => cost e c (buffer (size e c) (node e c) x))). rewrite Z.add_0_l, Z.add_comm. f_equal. apply total_ext. intros c _. rewrite buffer_reading. reflexivity.
Qed.

(* building *)
Lemma add_var_ok e i x : 0 <= nv e -> 0 <= i -> fst (add_var e i) = nv e /\ nv (snd (add_var e i)) = nv e + i /\ value (snd (add_var e i)) x = value e x.
Proof.
  intros Hv Hi. unfold add_var, value. cbn [fst snd nv un nc size node cost]. split; [reflexivity|]. split; [reflexivity|]. f_equal. replace (Z.to_nat (nv e + i)) with (Z.to_nat (nv e) + Z.to_nat i)%nat by lia.
  assert (G : forall m, total (Z.to_nat (nv e) + m) (fun j => if (Z.of_nat (Z.to_nat (nv e)) <=? j) && (j <? Z.of_nat (Z.to_nat (nv e) + m)) then 0 else un e j (x j)) = total (Z.to_nat (nv e)) (fun i => un e i (x i))).
  { intros m. set (N := Z.to_nat (nv e)). assert (Q : forall k, (k <= m)%nat -> total (N + k) (fun j => if (Z.of_nat N <=? j) && (j <? Z.of_nat (N + m)) then 0 else un e j (x j)) = total N (fun i => un e i (x i))); [|apply Q; lia].
    induction k as [|k IH]; intros Hk.
    - rewrite Nat.add_0_r. apply total_ext. intros j Hj. destruct (Z.leb_spec (Z.of_nat N) j); [lia|reflexivity].
    - rewrite Nat.add_succ_r. cbn [total]. rewrite IH by lia. destruct (Z.leb_spec (Z.of_nat N) (Z.of_nat (N + k))), (Z.ltb_spec (Z.of_nat (N + k)) (Z.of_nat (N + m))); cbn; lia. }
  rewrite <- (G (Z.to_nat i)). apply total_ext. intros j _. replace (Z.of_nat (Z.to_nat (nv e))) with (nv e) by lia. replace (Z.of_nat (Z.to_nat (nv e) + Z.to_nat i)) with (nv e + i) by lia. destruct ((nv e <=? j) && (j <? nv e + i)); reflexivity.
Qed.
Lemma add_unary_ok e i coeffs e' x : 0 <= i -> 0 <= x i < nl e -> add_unary e i coeffs = Some e' -> value e' x = value e x + nth (Z.to_nat (x i)) coeffs 0 /\ nl e' = nl e /\ nv e' = nv e.
Proof.
  intros Hi Hx H. unfold add_unary in H. destruct (Z.ltb_spec i (nv e)) as [L|]; [|discriminate]. destruct (Z.of_nat (length coeffs) =? nl e); [|discriminate]. injection H as <-. split; [|split; reflexivity]. unfold value. cbn [nv un nc size node cost].
  rewrite (total_point (Z.to_nat (nv e)) _ (fun i => un e i (x i)) i (nth (Z.to_nat (x i)) coeffs 0)); [lia|lia| |].
  - intros j _ N. destruct (Z.eqb_spec j i); [contradiction|reflexivity].
  - rewrite Z.eqb_refl. destruct (Z.leb_spec 0 (x i)), (Z.ltb_spec (x i) (nl e)); cbn; lia.
Qed.
Lemma add_clique_ok e k nodes f e' x : 0 <= nc e -> 1 <= k -> (k = 1 -> 0 <= nodes 0 /\ 0 <= x (nodes 0) < nl e) -> add_clique e k nodes f = Some e' -> value e' x = value e x + f (reading (Z.to_nat k) nodes x).
Proof.
  intros Hc Hk H1 H. unfold add_clique in H. destruct (Z.eqb_spec k 1) as [->|N].
  - destruct (H1 eq_refl) as [A B]. apply (add_unary_ok e (nodes 0) _ e' x) in H; [|assumption..]. destruct H as [-> _]. f_equal. cbn [reading Z.to_nat Pos.to_nat Pos.iter_op Nat.add].
    rewrite (nth_indep _ 0 (f [0])) by (rewrite map_length; unfold zrange; rewrite zseq_length; lia). rewrite (map_nth (fun l => f [l]) (zrange 0 (nl e)) 0). unfold zrange. rewrite nth_zseq by lia. replace (0 + Z.of_nat (Z.to_nat (x (nodes 0)))) with (x (nodes 0)) by lia. reflexivity.
  - injection H as <-. unfold value. cbn [nv un nc size node cost]. replace (Z.to_nat (nc e + 1)) with (S (Z.to_nat (nc e))) by lia. cbn [total]. rewrite Z2Nat.id by lia. rewrite Z.eqb_refl.
    rewrite (total_ext (Z.to_nat (nc e)) _ (fun c => cost e c (reading (Z.to_nat (size e c)) (node e c) x))); [lia|]. intros c Hc'. destruct (Z.eqb_spec c (nc e)); [lia|reflexivity].
Qed.
Lemma potts_ok same diff l : (l <> [] -> (potts same diff l = same \/ potts same diff l = diff)) /\ ((forall a b, In a l -> In b l -> a = b) -> potts same diff l = same) /\ ((exists a b, In a l /\ In b l /\ a <> b) -> potts same diff l = diff).
Proof.
  destruct l as [|a r]; unfold potts; cbn [hd List.tl].
  - split; [congruence|]. split; [reflexivity|]. intros (x & y & [] & _).
  - split; [intros _; induction r as [|b r IH]; cbn [potts_loop]; [left; reflexivity|destruct (b =? a); [exact IH|right; reflexivity]]|]. split.
    + intros H. assert (G : forall b, In b r -> b = a) by (intros b B; apply H; [right; exact B|left; reflexivity]). clear H. induction r as [|b r IH]; cbn [potts_loop]; [reflexivity|].
      rewrite (G b (or_introl eq_refl)), Z.eqb_refl. apply IH. intros c C. apply G. right. exact C.
    + intros (x & y & X & Y & N). assert (E : exists b, In b r /\ b <> a) by (destruct X as [<-|X]; [destruct Y as [<-|Y]; [contradiction|exists y; auto]|destruct (Z.eq_dec x a) as [->|]; [destruct Y as [<-|Y]; [contradiction|exists y; auto]|exists x; auto]]).
      clear - E. induction r as [|b r IH]; [destruct E as (? & [] & _)|]. cbn [potts_loop]. destruct (Z.eqb_spec b a); [|reflexivity]. apply IH. destruct E as (c & [<-|C] & D); [contradiction|exists c; auto].
Qed.

(* the first labels *)
Lemma best_ok top old n u : (forall l, 0 <= l < n -> u l < top) -> 0 < n -> 0 <= best_label top old n u < n /\ (forall l, 0 <= l < n -> u (best_label top old n u) <= u l) /\ (forall l, 0 <= l < best_label top old n u -> u (best_label top old n u) < u l).
Proof.
  intros T Hn. unfold best_label, zrange.
  assert (G : forall m, (m <= Z.to_nat n)%nat -> let r := fold_left (fun st l => if u l <? fst st then (u l, l) else st) (zseq 0 m) (top, old) in
    (m = O /\ r = (top, old)) \/ ((0 < m)%nat /\ 0 <= snd r < Z.of_nat m /\ fst r = u (snd r) /\ (forall l, 0 <= l < Z.of_nat m -> fst r <= u l) /\ (forall l, 0 <= l < snd r -> fst r < u l))).
  { induction m as [|m IH]; intros Hm; cbv zeta in *; [left; split; reflexivity|]. right. rewrite zseq_last, fold_left_app. cbn [fold_left]. rewrite Z.add_0_l. specialize (IH ltac:(lia)).
    destruct IH as [[-> E]|(M & A & B & C & D)].
    - rewrite E. cbn [fst snd]. destruct (Z.ltb_spec (u (Z.of_nat 0)) top) as [_|X]; [|specialize (T (Z.of_nat 0) ltac:(lia)); lia]. cbn [fst snd]. split; [lia|]. split; [lia|]. split; [reflexivity|]. split; [|intros; lia]. intros l Hl. replace l with (Z.of_nat 0) by lia. lia.
    - set (r := fold_left _ _ _) in *. clearbody r. destruct (Z.ltb_spec (u (Z.of_nat m)) (fst r)) as [X|X]; cbn [fst snd].
      + split; [lia|]. split; [lia|]. split; [reflexivity|]. split; intros l Hl; [destruct (Z.eq_dec l (Z.of_nat m)) as [->|]; [lia|specialize (C l ltac:(lia)); lia]|specialize (C l ltac:(lia)); lia].
      + split; [lia|]. split; [lia|]. split; [exact B|]. split; [|exact D]. intros l Hl. destruct (Z.eq_dec l (Z.of_nat m)) as [->|]; [lia|apply C; lia]. }
  specialize (G (Z.to_nat n) ltac:(lia)). cbv zeta in G. set (r := fold_left _ _ _) in *. clearbody r. destruct G as [[E _]|(_ & A & B & C & D)]; [lia|]. rewrite B in *. split; [lia|]. split; [intros; apply C; lia|exact D].
Qed.

(* shares *)
Lemma total_share m q r : 0 <= r -> total m (fun i => q + (if i <? r then 1 else 0)) = Z.of_nat m * q + Z.min (Z.of_nat m) r.
Proof. intros Hr. induction m as [|m IH]; cbn [total]; [lia|]. rewrite IH. destruct (Z.ltb_spec (Z.of_nat m) r); lia. Qed.
Lemma share_ok k v : 1 <= k -> 0 <= v -> total (Z.to_nat k) (share k v) = v.
Proof.
  intros Hk Hv. unfold share. assert (R := Z.rem_bound_pos v k Hv ltac:(lia)). assert (Q := Z.quot_rem' v k). rewrite total_share by lia. rewrite Z2Nat.id by lia. set (q := v ÷ k) in *. set (r := Z.rem v k) in *. clearbody q r. lia.
Qed.
Lemma amend_ok k v : 1 <= k -> total (Z.to_nat k) (amend k v) = v.
Proof.
  intros Hk. unfold amend. cbv zeta. assert (Q := Z.quot_rem' v k). destruct (Z.ltb_spec (Z.rem v k) 0) as [R|R].
  - assert (B := Z.rem_bound_pos_neg v k). assert (v < 0) by (destruct (Z_lt_le_dec v 0); [assumption|assert (X := Z.rem_bound_pos v k ltac:(lia) ltac:(lia)); lia]). specialize (B ltac:(lia) ltac:(lia)). rewrite total_share by lia. rewrite Z2Nat.id by lia. set (q := v ÷ k) in *. set (r := Z.rem v k) in *. clearbody q r. lia.
  - assert (Z.rem v k < k). { destruct (Z_lt_le_dec v 0) as [X|X]; [assert (Y := Z.rem_bound_pos_neg v k ltac:(lia) ltac:(lia)); lia|apply Z.rem_bound_pos; lia]. } rewrite total_share by lia. rewrite Z2Nat.id by lia. set (q := v ÷ k) in *. set (r := Z.rem v k) in *. clearbody q r. lia.
Qed.
Lemma initial_dual_ok e x d : sane e -> initial_dual e x = Some d -> tight e {| lab := x; lam := d |}.
Proof.
  intros (_ & _ & W) H c Hc. unfold initial_dual in H. destruct (forallb _ _) eqn:F; [|discriminate]. injection H as <-. cbn [lab lam]. rewrite forallb_forall in F. specialize (F c ltac:(apply in_zrange; lia)). apply andb_prop in F. destruct F as [_ F]. apply Z.leb_le in F. rewrite buffer_reading in *.
  transitivity (total (Z.to_nat (size e c)) (share (size e c) (cost e c (reading (Z.to_nat (size e c)) (node e c) x)))); [|apply share_ok; [apply W; lia|exact F]]. apply total_ext. intros j _. rewrite Z.eqb_refl, ?buffer_reading. reflexivity.
Qed.
Lemma initial_dual_some e x : sane e -> (forall c, 0 <= c < nc e -> 0 <= cost e c (reading (Z.to_nat (size e c)) (node e c) x)) -> exists d, initial_dual e x = Some d.
Proof.
  intros (_ & _ & W) H. unfold initial_dual. rewrite (proj2 (forallb_forall _ _)); [eexists; reflexivity|]. intros c Hc. apply in_zrange in Hc. rewrite buffer_reading. destruct (W c ltac:(lia)) as [A _]. specialize (H c ltac:(lia)). destruct (Z.ltb_spec (size e c) 32), (Z.leb_spec 0 (cost e c (reading (Z.to_nat (size e c)) (node e c) x))); try reflexivity; lia.
Qed.
Lemma correction_ok e st c : correction e st c = cost e c (reading (Z.to_nat (size e c)) (node e c) (lab st)) - total (Z.to_nat (size e c)) (fun j => lam st c j (lab st (node e c j))).
Proof. unfold correction, zrange. rewrite buffer_reading, (fold_total (fun j => lam st c j (lab st (node e c j)))). lia. Qed.
Lemma post_edit_ok e st : sane e -> match post_edit e st with
  | Some st' => lab st' = lab st /\ (forall c, 0 <= c < nc e -> cost e c (reading (Z.to_nat (size e c)) (node e c) (lab st)) <= total (Z.to_nat (size e c)) (fun j => lam st c j (lab st (node e c j)))) /\ tight e st' /\ forall c j l, l <> lab st (node e c j) -> lam st' c j l = lam st c j l
  | None => exists c, 0 <= c < nc e /\ total (Z.to_nat (size e c)) (fun j => lam st c j (lab st (node e c j))) < cost e c (reading (Z.to_nat (size e c)) (node e c) (lab st))
  end.
Proof.
  intros (_ & _ & W). unfold post_edit. destruct (forallb _ _) eqn:F.
  - split; [reflexivity|]. split; [|split].
    + intros c Hc. assert (N : In c (zrange 0 (nc e))) by (apply in_zrange; lia). assert (G := proj1 (forallb_forall _ _) F c N). cbv beta in G. apply Z.leb_le in G. rewrite correction_ok in G. lia.
    + intros c Hc. cbn [lab lam]. rewrite (total_ext _ _ (fun j => lam st c j (lab st (node e c j)) + amend (size e c) (correction e st c) j)) by (intros; rewrite Z.eqb_refl; reflexivity). rewrite total_add.
      change (total (Z.to_nat (size e c)) (fun j => amend (size e c) (correction e st c) j)) with (total (Z.to_nat (size e c)) (amend (size e c) (correction e st c))). rewrite amend_ok by (apply W; lia). rewrite correction_ok. lia.
    + intros c j l N. cbn [lam]. destruct (Z.eqb_spec l (lab st (node e c j))); [contradiction|reflexivity].
  - assert (X : exists c, In c (zrange 0 (nc e)) /\ (correction e st c <=? 0) = false).
    { clear - F. induction (zrange 0 (nc e)) as [|c l IH]; [discriminate|]. cbn [forallb] in F. destruct (correction e st c <=? 0) eqn:E; [|exists c; split; [left; reflexivity|exact E]]. destruct (IH F) as (d & D & E'). exists d. split; [right; exact D|exact E']. }
    destruct X as (c & Hc & E). apply in_zrange in Hc. apply Z.leb_gt in E. rewrite correction_ok in E. exists c. split; lia.
Qed.

(* heights *)
Lemma fold_flat {A B} (f : Z -> B -> Z) (g : A -> list B) l s : fold_left f (flat_map g l) s = fold_left (fun s a => fold_left f (g a) s) l s.
Proof. revert s. induction l as [|a l IH]; intros s; [reflexivity|]. cbn [flat_map fold_left]. rewrite fold_left_app. apply IH. Qed.
Lemma clique_list_sum e i F s : fold_left (fun r p => r + F (fst p) (snd p)) (clique_list e i) s = s + total (Z.to_nat (nc e)) (fun c => total (Z.to_nat (size e c)) (fun j => if node e c j =? i then F c j else 0)).
Proof.
  unfold clique_list. rewrite fold_flat. rewrite (SubmodularLinear.fold_left_ext _ (fun s c => s + total (Z.to_nat (size e c)) (fun j => if node e c j =? i then F c j else 0))).
  - unfold zrange. rewrite fold_total. reflexivity.
  - intros r c. rewrite fold_flat. rewrite (SubmodularLinear.fold_left_ext _ (fun s j => s + (if node e c j =? i then F c j else 0))) by (intros a j; destruct (node e c j =? i); cbn; lia). unfold zrange. rewrite fold_total. reflexivity.
Qed.
Lemma height_ok e dual i x : height e dual i x = stack e dual i x.
Proof. unfold height, stack. rewrite (clique_list_sum e i (fun c j => dual c j x)). reflexivity. Qed.
Lemma total_sub N x y : total N (fun j => x j - y j) = total N x - total N y.
Proof. induction N as [|N IH]; cbn [total]; [reflexivity|]. rewrite IH. lia. Qed.
Lemma height_diff_ok e dual i a b : height_diff e dual i a b = stack e dual i a - stack e dual i b.
Proof.
  unfold height_diff, stack. rewrite (clique_list_sum e i (fun c j => dual c j a - dual c j b)).
  rewrite (total_ext _ _ (fun c => total (Z.to_nat (size e c)) (fun j => if node e c j =? i then dual c j a else 0) - total (Z.to_nat (size e c)) (fun j => if node e c j =? i then dual c j b else 0))); [rewrite total_sub; lia|].
  intros c _. rewrite <- total_sub. apply total_ext. intros j _. destruct (node e c j =? i); lia.
Qed.
Lemma total_swap N M (F : Z -> Z -> Z) : total N (fun i => total M (F i)) = total M (fun j => total N (fun i => F i j)).
Proof. induction N as [|N IH]; cbn [total]; [rewrite total_zero; reflexivity|]. rewrite IH, <- total_add. reflexivity. Qed.
Lemma total_one N v i : 0 <= i < Z.of_nat N -> total N (fun k => if i =? k then v k else 0) = v i.
Proof.
  intros Hi. rewrite (total_point N _ (fun _ => 0) i (v i)); [rewrite total_zero; [reflexivity|reflexivity]|exact Hi| |].
  - intros j _ N'. destruct (Z.eqb_spec i j); [congruence|reflexivity].
  - rewrite Z.eqb_refl. reflexivity.
Qed.
Lemma stacks e dual x : sane e -> total (Z.to_nat (nv e)) (fun i => stack e dual i (x i)) =
  total (Z.to_nat (nv e)) (fun i => un e i (x i)) + total (Z.to_nat (nc e)) (fun c => total (Z.to_nat (size e c)) (fun j => dual c j (x (node e c j)))).
Proof.
  intros (HV & HC & W). unfold stack. rewrite total_add. f_equal. rewrite (total_swap _ _ (fun i c => total (Z.to_nat (size e c)) (fun j => if node e c j =? i then dual c j (x i) else 0))).
  apply total_ext. intros c Hc. destruct (W c ltac:(lia)) as [_ HN]. rewrite (total_swap _ _ (fun i j => if node e c j =? i then dual c j (x i) else 0)). apply total_ext. intros j Hj. specialize (HN j ltac:(lia)).
  apply (total_one (Z.to_nat (nv e)) (fun i => dual c j (x i))). lia.
Qed.
Lemma tight_value e st : sane e -> tight e st -> value e (lab st) = total (Z.to_nat (nv e)) (fun i => stack e (lam st) i (lab st i)).
Proof. intros W T. rewrite stacks by exact W. unfold value. f_equal. apply total_ext. intros c Hc. symmetry. apply T. lia. Qed.

(* the table of a move *)
Lemma list_total l : FusionTerms.total l = fold_right Z.add 0 l.
Proof. reflexivity. Qed.
Lemma zrange_total k (f : Z -> Z) : FusionTerms.total (map f (zrange 0 k)) = total (Z.to_nat k) f.
Proof.
  unfold zrange. induction (Z.to_nat k) as [|m IH]; [reflexivity|]. rewrite zseq_last, map_app. unfold FusionTerms.total in *. rewrite fold_right_app. cbn [map fold_right total]. rewrite <- IH, Z.add_0_l, Z.add_0_r.
  generalize (f (Z.of_nat m)). generalize (map f (zseq 0 m)). intros l v. induction l as [|a l IHl]; cbn [fold_right]; lia.
Qed.
Lemma move_table_ok e st fus old c L S : sane e -> 0 <= c < nc e -> part (size e c) (node e c) L S -> let y i := if L i then fus i else lab st i in
  move_table e st fus old c S = cost e c (reading (Z.to_nat (size e c)) (node e c) y) - total (Z.to_nat (size e c)) (fun j => lam st c j (y (node e c j))).
Proof.
  intros (_ & _ & W) Hc [P1 P2] y. destruct (W c Hc) as [Hs _]. unfold move_table. cbv zeta. rewrite GrayCode.subtract_linear_spec, GrayCode.energy_table_spec by (exact P1 || lia). rewrite zrange_total. f_equal.
  - f_equal. rewrite <- buffer_reading. unfold buffer. apply map_ext_in. intros j Hj. apply in_zrange in Hj. unfold GrayCode.choice, y. rewrite P2 by lia. destruct (L (node e c j)); reflexivity.
  - apply total_ext. intros j Hj. unfold GrayCode.choice, y. rewrite P2 by lia. destruct (L (node e c j)); reflexivity.
Qed.
