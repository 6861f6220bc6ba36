From Coq Require Import ZArith List Bool Lia.
From Verif Require Import Lib.Grid Model.Submodular Spec.Submodular Model.Clique Spec.Clique Model.Flow Spec.Flow Proofs.Submodular Proofs.SubmodularLinear Proofs.SubmodularNormal Proofs.Clique Proofs.CliqueTight Proofs.CliqueBound Proofs.FlowShortcut Spec.FlowPath.
Import ListNotations.
Open Scope Z_scope.


Lemma index_ok n nodes x : (exists i, 0 <= i < n /\ nodes i = x) -> 0 <= get_index n nodes x < n /\ nodes (get_index n nodes x) = x.
Proof.
  intros (i & Hi & E). unfold get_index. destruct (find (fun i => nodes i =? x) (zrange 0 n)) as [j|] eqn:F.
  - apply find_some in F. destruct F as [F1 F2]. apply in_zrange in F1. apply Z.eqb_eq in F2. lia.
  - exfalso. assert (X := find_none _ _ F i ltac:(apply in_zrange; lia)). cbn in X. apply Z.eqb_neq in X. contradiction.
Qed.
Lemma ends_ok g d a : proper g a -> let u := fst (ends g d a) in let v := snd (ends g d a) in
  0 <= u < csize g (clique_of a) /\ 0 <= v < csize g (clique_of a) /\ members g (clique_of a) u = tail g (d, a) /\ members g (clique_of a) v = head g (d, a) /\ u <> v.
Proof.
  destruct a as [[s c] i]. unfold proper, clique_of, tail, head, ends, source, target. cbn [fst snd]. intros (Hc & Hi & E & N). apply index_ok in E. destruct E as [E1 E2].
  assert (D : get_index (csize g c) (members g c) s <> i) by (intros X; rewrite X in E2; contradiction).
  destruct d; cbn [fst snd]; repeat split; try lia; try assumption; intros X; apply D; congruence.
Qed.

(* sums *)
Lemma total_ext N x y : (forall j, 0 <= j < Z.of_nat N -> x j = y j) -> total N x = total N y.
Proof. induction N as [|N IH]; intros H; cbn [total]; [reflexivity|]. rewrite IH by (intros; apply H; lia). rewrite H by lia. reflexivity. Qed.
Lemma total_point N x y c d : 0 <= c < Z.of_nat N -> (forall j, 0 <= j < Z.of_nat N -> j <> c -> x j = y j) -> x c = y c + d -> total N x = total N y + d.
Proof.
  induction N as [|N IH]; intros Hc H E; [lia|]. cbn [total]. destruct (Z.eq_dec c (Z.of_nat N)) as [->|X].
  - rewrite (total_ext N x y) by (intros; apply H; lia). lia.
  - rewrite IH by (lia || (intros; apply H; lia) || assumption). rewrite (H (Z.of_nat N)) by lia. lia.
Qed.
Lemma total_le N x y : (forall j, 0 <= j < Z.of_nat N -> x j <= y j) -> total N x <= total N y.
Proof. induction N as [|N IH]; intros H; cbn [total]; [lia|]. assert (A := IH ltac:(intros; apply H; lia)). assert (B := H (Z.of_nat N) ltac:(lia)). lia. Qed.
Lemma total_add N x y : total N (fun j => x j + y j) = total N x + total N y.
Proof. induction N as [|N IH]; cbn [total]; [reflexivity|]. lia. Qed.
Lemma total_zero N x : (forall j, 0 <= j < Z.of_nat N -> x j = 0) -> total N x = 0.
Proof. induction N as [|N IH]; intros H; cbn [total]; [reflexivity|]. rewrite IH by (intros; apply H; lia). rewrite H by lia. reflexivity. Qed.
Lemma picked_part n nodes L : 0 <= n < 32 -> part n nodes L (picked (Z.to_nat n) nodes L).
Proof.
  intros Hn. unfold part. enough (G : forall k, within (Z.of_nat k) (picked k nodes L) /\ forall i, 0 <= i < Z.of_nat k -> Z.testbit (picked k nodes L) i = L (nodes i)).
  { specialize (G (Z.to_nat n)). rewrite Z2Nat.id in G by lia. exact G. }
  induction k as [|k [W I]]; [split; [unfold within; cbn; lia|intros; lia]|]. cbn [picked]. set (s := picked k nodes L) in *. clearbody s.
  assert (P := pow_pos (Z.of_nat k) ltac:(lia)). assert (Q : 2 ^ Z.of_nat (S k) = 2 * 2 ^ Z.of_nat k) by (rewrite Nat2Z.inj_succ, Z.pow_succ_r by lia; reflexivity).
  split; [unfold within in *; destruct (L (nodes (Z.of_nat k))); lia|].
  assert (E : s + (if L (nodes (Z.of_nat k)) then 2 ^ Z.of_nat k else 0) = Z.lor s (if L (nodes (Z.of_nat k)) then 2 ^ Z.of_nat k else 0)).
  { symmetry. destruct (L (nodes (Z.of_nat k))); [|rewrite Z.lor_0_r; lia]. rewrite <- Z.lxor_lor, <- Z.add_nocarry_lxor; try reflexivity;
    (apply bits_ext; intros b Hb; rewrite Z.land_spec, pow_spec, Z.bits_0 by lia; destruct (Z.eqb_spec (Z.of_nat k) b) as [<-|]; [rewrite (bit_high (Z.of_nat k)) by (assumption || lia); reflexivity|apply andb_false_r]). }
  rewrite E. intros i Hi. rewrite Z.lor_spec. destruct (Z.eq_dec i (Z.of_nat k)) as [->|X].
  - rewrite (bit_high (Z.of_nat k)) by (assumption || lia). cbn [orb]. destruct (L (nodes (Z.of_nat k))); [rewrite pow_spec by lia; apply Z.eqb_refl|apply Z.bits_0].
  - rewrite I by lia. destruct (L (nodes (Z.of_nat k))); [rewrite pow_spec by lia; destruct (Z.eqb_spec (Z.of_nat k) i); [lia|]; apply orb_false_r|rewrite Z.bits_0; apply orb_false_r].
Qed.

(* one push *)
Definition gain (L : Z -> bool) (d x : Z) : Z := if L x then d else 0.
Definition move (g : net) (d : Z) (c : Z) (p : bool * arc) (S : Z) : Z := if clique_of (snd p) =? c then shift (fst (ends g (fst p) (snd p))) (snd (ends g (fst p) (snd p))) d S else 0.
Definition moves (g : net) (d : Z) (c : Z) (l : list (bool * arc)) (S : Z) : Z := fold_right (fun p x => move g d c p S + x) 0 l.
Definition pushed (g : net) (d : Z) (l : list (bool * arc)) (fl fl' : flow) : Prop :=
  phi_si fl' = phi_si fl /\ phi_it fl' = phi_it fl /\
  (forall c S, 0 <= c < ncl g -> within (csize g c) S -> alpha (cl fl' c) S = alpha (cl fl c) S + moves g d c l S /\ told (csize g c) (alpha (cl fl' c)) (ci (cl fl' c)) S = told (csize g c) (alpha (cl fl c)) (ci (cl fl c)) S) /\
  (current g fl -> current g fl') /\
  (forall L, residual g fl' L = residual g fl L + fold_right (fun p x => gain L d (head g p) - gain L d (tail g p) + x) 0 l).
Lemma push_arc_ok g d dir a fl : wf g -> proper g a -> exists fl', push_arc g d dir a fl = Done fl' /\ pushed g d [(dir, a)] fl fl'.
Proof.
  intros (WN & WC & W) P. destruct (ends_ok g dir a P) as (Hu & Hv & Mu & Mv & Nuv). cbv zeta in *. set (c := clique_of a) in *. assert (Hc : 0 <= c < ncl g) by apply P.
  destruct (W c Hc) as [Hs HM]. unfold push_arc. change (snd (fst a)) with c. destruct (push_ok (csize g c) (cl fl c) (fst (ends g dir a)) (snd (ends g dir a)) d ltac:(lia) Hu Hv) as (c' & E & A & B & C & D).
  rewrite E. cbn [bind]. eexists. split; [reflexivity|]. unfold pushed. cbn [phi_si phi_it cl moves fold_right]. split; [reflexivity|]. split; [reflexivity|]. split; [|split].
  - intros x S Hx WS. unfold put, move. cbn [fst snd]. fold c. destruct (Z.eqb_spec x c) as [->|N].
    + rewrite Z.eqb_refl, A by exact WS. split; [lia|]. apply C. exact WS.
    + destruct (Z.eqb_spec c x); [congruence|]. split; [lia|reflexivity].
  - intros K x Hx. cbn [cl]. unfold put. destruct (Z.eqb_spec x c) as [->|N]; [exists (tight (cl fl c)); exact D|apply K; exact Hx].
  - intros L. unfold residual. cbn [phi_si phi_it cl]. unfold cliques.
    rewrite (total_point _ _ (fun x => alpha (cl fl x) (picked (Z.to_nat (csize g x)) (members g x) L)) c (gain L d (head g (dir, a)) - gain L d (tail g (dir, a)))); [lia|lia| |].
    + intros x Hx N. unfold put. destruct (Z.eqb_spec x c); [contradiction|reflexivity].
    + unfold put. rewrite Z.eqb_refl. destruct (picked_part (csize g c) (members g c) L ltac:(lia)) as [P1 P2]. rewrite A by exact P1. f_equal. unfold shift. rewrite !P2 by assumption. rewrite Mu, Mv. reflexivity.
Qed.
Lemma moves_app g d c l1 l2 S : moves g d c (l1 ++ l2) S = moves g d c l1 S + moves g d c l2 S.
Proof. induction l1 as [|p l1 IH]; cbn [moves fold_right app] in *; [reflexivity|]. fold (moves g d c (l1 ++ l2) S) (moves g d c l1 S) in *. lia. Qed.
Lemma gains_app L d g l1 l2 : let G l := fold_right (fun p x => gain L d (head g p) - gain L d (tail g p) + x) 0 l in G (l1 ++ l2) = G l1 + G l2.
Proof. cbv zeta. induction l1 as [|p l1 IH]; cbn [fold_right app] in *; [reflexivity|]. lia. Qed.
Lemma pushed_trans g d l1 l2 f1 f2 f3 : pushed g d l1 f1 f2 -> pushed g d l2 f2 f3 -> pushed g d (l1 ++ l2) f1 f3.
Proof.
  intros (A1 & A2 & A3 & A4 & A5) (B1 & B2 & B3 & B4 & B5). unfold pushed. split; [congruence|]. split; [congruence|]. split; [|split; [auto|]].
  - intros c S Hc W. destruct (A3 c S Hc W) as [X1 X2], (B3 c S Hc W) as [Y1 Y2]. rewrite moves_app. split; [lia|congruence].
  - intros L. rewrite B5, A5. assert (X := gains_app L d g l1 l2). cbv zeta in X. rewrite X. lia.
Qed.
Lemma pushed_nil g d fl : pushed g d [] fl fl.
Proof. unfold pushed. cbn. split; [reflexivity|]. split; [reflexivity|]. split; [intros; split; [lia|reflexivity]|]. split; [auto|]. intros; lia. Qed.

(* the way up *)
Fixpoint iter {A} (step : Z -> A -> run A) (l : list Z) (acc : A) : run A := match l with [] => Done acc | x :: l => bind (step x acc) (iter step l) end.
Lemma climb_iter {A} parent root (step : Z -> A -> run A) x l y : chain parent root x l y -> forall fuel acc, (length l < fuel)%nat ->
  climb fuel root parent step x acc = bind (iter step l acc) (fun acc => Done (y, acc)).
Proof.
  induction 1 as [x E|x l y N C IH]; intros [|fuel] acc F; cbn [length] in F; try lia; cbn [climb iter].
  - rewrite E, Z.eqb_refl. reflexivity.
  - destruct (Z.eqb_spec (parent x) root); [contradiction|]. destruct (step x acc) as [a| | |]; cbn [bind]; try reflexivity. apply IH. lia.
Qed.
Lemma iter_push g d dir parc l : wf g -> (forall x, In x l -> proper g (parc x)) -> forall fl, exists fl', iter (fun x => push_arc g d dir (parc x)) l fl = Done fl' /\ pushed g d (map (fun x => (dir, parc x)) l) fl fl'.
Proof.
  intros W. induction l as [|x l IH]; intros P fl; [exists fl; split; [reflexivity|apply pushed_nil]|].
  destruct (push_arc_ok g d dir (parc x) fl W (P x (or_introl eq_refl))) as (f1 & E1 & P1). destruct (IH (fun y H => P y (or_intror H)) f1) as (f2 & E2 & P2).
  exists f2. cbn [iter map]. rewrite E1. cbn [bind]. split; [exact E2|]. exact (pushed_trans g d [_] _ _ _ _ P1 P2).
Qed.
Lemma res_cap_ok top g fl dir a : wf g -> roomy top g fl -> proper g a -> exists k, res_cap top g fl dir a = Done k /\ lets g fl (dir, a) k.
Proof.
  intros (_ & _ & W) R P. destruct (ends_ok g dir a P) as (Hu & Hv & _ & _ & N). cbv zeta in *. assert (Hc : 0 <= clique_of a < ncl g) by apply P. destruct (W _ Hc) as [Hs _].
  unfold res_cap, lets. change (snd (fst a)) with (clique_of a). apply (capacity_ok _ _ _ (conj (Z.le_trans 0 1 _ ltac:(lia) (proj1 Hs)) (proj2 Hs)) Hu Hv top _ N). intros S WS. apply R; assumption.
Qed.
Lemma iter_lower top g fl dir parc l : wf g -> roomy top g fl -> (forall x, In x l -> proper g (parc x)) -> forall b,
  exists b', iter (fun x b => bind (res_cap top g fl dir (parc x)) (fun c => Done (Z.min b c))) l b = Done b' /\ b' <= b /\
  (forall x, In x l -> exists k, lets g fl (dir, parc x) k /\ b' <= k) /\ (b' = b \/ exists x, In x l /\ lets g fl (dir, parc x) b').
Proof.
  intros W R. induction l as [|x l IH]; intros P b.
  - exists b. split; [reflexivity|]. split; [lia|]. split; [intros ? []|left; reflexivity].
  - destruct (res_cap_ok top g fl dir (parc x) W R (P x (or_introl eq_refl))) as (k & E & K). destruct (IH (fun y H => P y (or_intror H)) (Z.min b k)) as (b' & E' & A & B & C).
    exists b'. cbn [iter]. rewrite E. cbn [bind]. split; [exact E'|]. split; [lia|]. split.
    + intros y [<-|H]; [exists k; split; [exact K|lia]|apply B; exact H].
    + destruct C as [C|(y & H & C)]; [|right; exists y; split; [right; exact H|exact C]]. destruct (Z.min_spec b k) as [[_ M]|[_ M]]; rewrite M in C; [left; exact C|right; exists x; split; [left; reflexivity|rewrite C; exact K]].
Qed.
Lemma chain_gain parent root g L d parc x l y : chain parent root x l y -> (forall z, In z l -> source (parc z) = z /\ target g (parc z) = parent z) ->
  fold_right (fun p s => gain L d (head g p) - gain L d (tail g p) + s) 0 (map (fun z => (false, parc z)) l) = gain L d x - gain L d y /\
  fold_right (fun p s => gain L d (head g p) - gain L d (tail g p) + s) 0 (map (fun z => (true, parc z)) l) = gain L d y - gain L d x.
Proof.
  induction 1 as [x E|x l y N C IH]; intros H; [cbn; lia|]. destruct (H x (or_introl eq_refl)) as [H1 H2]. destruct (IH (fun z I => H z (or_intror I))) as [I1 I2]. cbn [map fold_right].
  rewrite I1, I2. unfold head, tail. cbn [fst snd]. rewrite H1, H2. lia.
Qed.
Lemma chain_range parent root g parc x l y : chain parent root x l y -> (forall z, In z l -> target g (parc z) = parent z /\ 0 <= target g (parc z) < nnodes g) -> 0 <= x < nnodes g -> 0 <= y < nnodes g.
Proof. induction 1 as [x E|x l y N C IH]; intros H Hx; [exact Hx|]. apply IH; [intros z I; apply H; right; exact I|]. destruct (H x (or_introl eq_refl)) as [<- R]. exact R. Qed.

Lemma moves_rev g d c l S : moves g d c (rev l) S = moves g d c l S.
Proof. induction l as [|p l IH]; [reflexivity|]. cbn [rev]. rewrite moves_app, IH. cbn [moves fold_right]. fold (moves g d c l S). lia. Qed.
Lemma cut_put_si N si it x d b L : 0 <= x < N -> cut N (fun j => si j - put d x (d x + b) j) it L = cut N (fun j => si j - d j) it L + (if L x then 0 else - b).
Proof.
  intros H. unfold cut. apply (total_point _ _ _ x); [lia| |].
  - intros j Hj X. unfold put. destruct (Z.eqb_spec j x); [contradiction|reflexivity].
  - unfold put. rewrite Z.eqb_refl. destruct (L x); lia.
Qed.
Lemma cut_put_it N si it x d b L : 0 <= x < N -> cut N si (fun j => it j - put d x (d x + b) j) L = cut N si (fun j => it j - d j) L + (if L x then - b else 0).
Proof.
  intros H. unfold cut. apply (total_point _ _ _ x); [lia| |].
  - intros j Hj X. unfold put. destruct (Z.eqb_spec j x); [contradiction|reflexivity].
  - unfold put. rewrite Z.eqb_refl. destruct (L x); lia.
Qed.
Lemma augment_ok fuel top g parent parc fwd a fl ls xs lt xt : wf g -> roomy top g fl -> proper g a ->
  chain parent (nnodes g) (tail g (fwd, a)) ls xs -> chain parent (nnodes g + 1) (head g (fwd, a)) lt xt -> on_tree g parent parc ls -> on_tree g parent parc lt -> (length ls < fuel)%nat -> (length lt < fuel)%nat ->
  exists b r, augment fuel top g parent parc fwd a fl = Done r /\
  (forall p, In p (way fwd a parc ls lt) -> exists k, lets g fl p k /\ b <= k) /\ b <= c_si g xs - phi_si fl xs /\ b <= c_it g xt - phi_it fl xt /\
  ((exists p, In p (way fwd a parc ls lt) /\ lets g fl p b) \/ b = c_si g xs - phi_si fl xs \/ b = c_it g xt - phi_it fl xt) /\
  match r with
  | None => b <= 0
  | Some fl' => 0 < b /\ 0 <= xs < nnodes g /\ 0 <= xt < nnodes g /\ (forall L, residual g fl' L = residual g fl L - b) /\
      (forall j, phi_si fl' j = phi_si fl j + (if j =? xs then b else 0)) /\ (forall j, phi_it fl' j = phi_it fl j + (if j =? xt then b else 0)) /\
      (current g fl -> current g fl') /\
      (forall c S, 0 <= c < ncl g -> within (csize g c) S -> alpha (cl fl' c) S = alpha (cl fl c) S + moves g b c (way fwd a parc ls lt) S /\
         told (csize g c) (alpha (cl fl' c)) (ci (cl fl' c)) S = told (csize g c) (alpha (cl fl c)) (ci (cl fl c)) S)
  end.
Proof.
  intros W R P Cs Ct Ts Tt Fs Ft. unfold augment. cbv zeta.
  change (if fwd then source a else target g a) with (tail g (fwd, a)). change (if fwd then target g a else source a) with (head g (fwd, a)).
  destruct (res_cap_ok top g fl fwd a W R P) as (b0 & E0 & K0). rewrite E0. cbn [bind].
  destruct (iter_lower top g fl false parc ls W R (fun x H => proj1 (Ts x H)) b0) as (b1 & E1 & L1 & A1 & D1). rewrite (climb_iter _ _ _ _ _ _ Cs fuel b0 Fs), E1. cbn [bind].
  destruct (iter_lower top g fl true parc lt W R (fun x H => proj1 (Tt x H)) (Z.min b1 (c_si g xs - phi_si fl xs))) as (b2 & E2 & L2 & A2 & D2). rewrite (climb_iter _ _ _ _ _ _ Ct fuel _ Ft), E2. cbn [bind].
  set (b := Z.min b2 (c_it g xt - phi_it fl xt)).
  assert (Bk : forall p, In p (way fwd a parc ls lt) -> exists k, lets g fl p k /\ b <= k).
  { intros p I. unfold way in I. rewrite in_app_iff, <- in_rev in I. cbn [In] in I. rewrite !in_map_iff in I. destruct I as [(z & <- & I)|[<-|(z & <- & I)]].
    - destruct (A1 z I) as (k & Kz & Hk). exists k. split; [exact Kz|lia].
    - exists b0. split; [exact K0|lia].
    - destruct (A2 z I) as (k & Kz & Hk). exists k. split; [exact Kz|lia]. }
  assert (Be : (exists p, In p (way fwd a parc ls lt) /\ lets g fl p b) \/ b = c_si g xs - phi_si fl xs \/ b = c_it g xt - phi_it fl xt).
  { assert (I0 : In (fwd, a) (way fwd a parc ls lt)) by (unfold way; rewrite in_app_iff; right; left; reflexivity).
    assert (Is : forall x, In x ls -> In (false, parc x) (way fwd a parc ls lt)) by (intros x I; unfold way; rewrite in_app_iff, <- in_rev, in_map_iff; left; exists x; auto).
    assert (It : forall x, In x lt -> In (true, parc x) (way fwd a parc ls lt)) by (intros x I; unfold way; rewrite in_app_iff; right; right; rewrite in_map_iff; exists x; auto).
    destruct (Z.min_spec b2 (c_it g xt - phi_it fl xt)) as [[_ M]|[_ M]]; fold b in M; [|right; right; exact M].
    rewrite M. destruct D2 as [D2|(x & I & D2)]; [|left; exists (true, parc x); split; [apply It; exact I|exact D2]].
    destruct (Z.min_spec b1 (c_si g xs - phi_si fl xs)) as [[_ M1]|[_ M1]]; rewrite M1 in D2; [|right; left; exact D2].
    rewrite D2. destruct D1 as [D1|(x & I & D1)]; [|left; exists (false, parc x); split; [apply Is; exact I|exact D1]]. left. exists (fwd, a). split; [exact I0|]. rewrite D1. exact K0. }
  assert (Bs : b <= c_si g xs - phi_si fl xs) by lia. assert (Bt : b <= c_it g xt - phi_it fl xt) by lia.
  exists b. destruct (Z.leb_spec b 0) as [LE|GT].
  { exists None. split; [reflexivity|]. split; [exact Bk|]. split; [exact Bs|]. split; [exact Bt|]. split; [exact Be|exact LE]. }
  clear L1 A1 D1 E1 L2 A2 D2 E2. clearbody b.
  destruct (push_arc_ok g b fwd a fl W P) as (f1 & E1 & P1). rewrite E1. cbn [bind].
  destruct (iter_push g b false parc ls W (fun x H => proj1 (Ts x H)) f1) as (f2 & E2 & P2). rewrite (climb_iter _ _ _ _ _ _ Cs fuel f1 Fs), E2. cbn [bind].
  set (f3 := {| cl := cl f2; phi_si := put (phi_si f2) xs (phi_si f2 xs + b); phi_it := phi_it f2 |}).
  destruct (iter_push g b true parc lt W (fun x H => proj1 (Tt x H)) f3) as (f4 & E4 & P4). rewrite (climb_iter _ _ _ _ _ _ Ct fuel f3 Ft), E4. cbn [bind].
  assert (Q := pushed_trans _ _ _ _ _ _ _ P1 P2). destruct Q as (Q1 & Q2 & Q3 & Q4 & Q5). destruct P4 as (R1 & R2 & R3 & R4 & R5). cbn [phi_si phi_it cl f3] in *.
  assert (RG : forall d' x', proper g x' -> 0 <= tail g (d', x') < nnodes g /\ 0 <= head g (d', x') < nnodes g).
  { intros d' x' P'. destruct (ends_ok g d' x' P') as (Hu & Hv & Mu & Mv & _). cbv zeta in *. destruct W as (_ & _ & W). destruct (W _ (proj1 P')) as [_ HM]. rewrite <- Mu, <- Mv. split; apply HM; assumption. }
  destruct (RG fwd a P) as [Gi Gj].
  assert (Xs : 0 <= xs < nnodes g). { apply (chain_range _ _ g parc _ _ _ Cs); [|exact Gi]. intros z I. destruct (Ts z I) as (T1 & T2 & T3). split; [exact T3|]. exact (proj2 (RG true (parc z) T1)). }
  assert (Xt : 0 <= xt < nnodes g). { apply (chain_range _ _ g parc _ _ _ Ct); [|exact Gj]. intros z I. destruct (Tt z I) as (T1 & T2 & T3). split; [exact T3|]. exact (proj2 (RG true (parc z) T1)). }
  eexists. split; [reflexivity|]. split; [exact Bk|]. split; [exact Bs|]. split; [exact Bt|]. split; [exact Be|]. split; [lia|]. split; [exact Xs|]. split; [exact Xt|]. cbn [phi_si phi_it cl].
  split; [|split; [|split; [|split]]].
  - intros L. specialize (Q5 L). specialize (R5 L). assert (GA := gains_app L b g [(fwd, a)] (map (fun x => (false, parc x)) ls)). cbv zeta in GA. rewrite GA in Q5. clear GA.
    destruct (chain_gain _ _ g L b parc _ _ _ Cs (fun z I => proj2 (Ts z I))) as [X1 _]. destruct (chain_gain _ _ g L b parc _ _ _ Ct (fun z I => proj2 (Tt z I))) as [_ X2]. rewrite X1 in Q5. rewrite X2 in R5. clear X1 X2.
    cbn [fold_right] in Q5. assert (F3 : residual g f3 L = residual g f2 L + (if L xs then 0 else - b)) by (unfold residual; cbn [phi_si phi_it cl f3]; rewrite cut_put_si by exact Xs; lia).
    rewrite F3 in R5. clear F3. unfold residual in *. cbn [phi_si phi_it cl] in *. rewrite cut_put_it by exact Xt. unfold gain in *. destruct (L xs), (L xt); lia.
  - intros j. rewrite R1, Q1. unfold put. destruct (Z.eqb_spec j xs) as [->|]; lia.
  - intros j. unfold put. rewrite R2, Q2. destruct (Z.eqb_spec j xt) as [->|]; lia.
  - intros K. exact (R4 (Q4 K)).
  - intros c S Hc WS. destruct (Q3 c S Hc WS) as [U1 U2], (R3 c S Hc WS) as [V1 V2]. split; [|congruence]. rewrite V1, U1. unfold way. rewrite !moves_app, moves_rev.
    change ((fwd, a) :: map (fun x => (true, parc x)) lt) with ([(fwd, a)] ++ map (fun x => (true, parc x)) lt). rewrite moves_app. lia.
Qed.
