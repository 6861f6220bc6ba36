(* C114: multilabel energies, and the primal-dual moves over them with the flow of C113. *)
From Coq Require Import ZArith QArith List Bool Lia.
From Verif Require Import Lib.Grid Model.Submodular Spec.Submodular Model.Clique Spec.Clique Model.Flow Spec.Flow Proofs.Flow Proofs.FlowCut Proofs.CliqueBound Proofs.SubmodularUpper Spec.FlowPath Proofs.Submodular Proofs.Sospd Proofs.SospdRound Proofs.SospdLoop Model.Sospd Spec.Sospd.
Import ListNotations.
Open Scope Z_scope.

(* three variables with two labels; a Potts clique of all three, and one of the first two *)
Definition ex_energy : mle := {| nl := 2; nv := 3; con := 0; un := fun i l => if i =? 0 then 5 * l else 4 * (1 - l); nc := 2; size := fun c => if c =? 0 then 3 else 2; node := fun _ j => j; cost := fun _ => potts 0 7 |}.
Lemma ex_sane : sane ex_energy.
Proof. split; [cbn; lia|]. split; [cbn; lia|]. cbn. intros c Hc. destruct (Z.eqb_spec c 0); (split; [lia|]); intros; lia. Qed.

(* computeEnergy is the sum of all unary costs and cliques; addVar, addUnaryTerm and addClique add what they say, cliques of one variable too. *)
Theorem C114_energy e x : energy_of e x = value e x.
Proof. exact (energy_value e x). Qed.
Print Assumptions C114_energy.
Theorem C114_add_var e i x : 0 <= nv e -> 0 <= i -> fst (add_var e i) = nv e /\ nv (snd (add_var e i)) = nv e + i /\ energy_of (snd (add_var e i)) x = energy_of e x.
Proof. rewrite !energy_value. exact (add_var_ok e i x). Qed.
Print Assumptions C114_add_var.
Theorem C114_add_unary e i coeffs e' x : 0 <= i -> 0 <= x i < nl e -> add_unary e i coeffs = Some e' -> energy_of e' x = energy_of e x + nth (Z.to_nat (x i)) coeffs 0.
Proof. rewrite !energy_value. intros A B C. apply (add_unary_ok e i coeffs e' x A B C). Qed.
Print Assumptions C114_add_unary.
Theorem C114_add_clique e k nodes f e' x : 0 <= nc e -> 1 <= k -> (k = 1 -> 0 <= nodes 0 /\ 0 <= x (nodes 0) < nl e) -> add_clique e k nodes f = Some e' -> energy_of e' x = energy_of e x + f (reading (Z.to_nat k) nodes x).
Proof. rewrite !energy_value. exact (add_clique_ok e k nodes f e' x). Qed.
Print Assumptions C114_add_clique.
Example C114_ex_add : match add_unary (snd (add_var (new_mle 2) 3)) 1 [10; 20] with Some e => match add_clique e 1 (fun _ => 2) (potts 6 9) with Some e => match add_clique e 3 (fun j => j) (potts 0 7) with Some e => energy_of e (fun i => if i =? 1 then 1 else 0) | None => 0 end | None => 0 end | None => 0 end = 33.
Proof. reflexivity. Qed.
(* addConstantTerm says it adds a constant: no energy ever changes. *)
Theorem C114_constant e c x : energy_of (add_constant e c) x = energy_of e x.
Proof. reflexivity. Qed.
Print Assumptions C114_constant.
Theorem C114_constant_refuted : exists e c x, energy_of (add_constant e c) x <> energy_of e x + c.
Proof. exists ex_energy, 5, (fun _ => 0). vm_compute. discriminate. Qed.
Print Assumptions C114_constant_refuted.
Theorem C114_potts same diff l : (l <> [] -> potts same diff l = same \/ potts same diff l = diff) /\ ((forall a b, In a l -> In b l -> a = b) -> potts same diff l = same) /\ ((exists a b, In a l /\ In b l /\ a <> b) -> potts same diff l = diff).
Proof. exact (potts_ok same diff l). Qed.
Print Assumptions C114_potts.
(* GetLabel says it returns -1 before Solve. *)
Theorem C114_label_refuted : forall d i, get_label {| lab := fresh; lam := d |} i <> -1.
Proof. intros d i. cbn. discriminate. Qed.
Print Assumptions C114_label_refuted.

(* InitialLabeling takes the first of the labels of least unary cost; InitialDual splits each clique's energy over its variables without rest. *)
Theorem C114_initial top e old i : 0 < nl e -> 0 <= i < nv e -> (forall l, 0 <= l < nl e -> un e i l < top) -> let b := initial_labels top e old i in
  0 <= b < nl e /\ (forall l, 0 <= l < nl e -> un e i b <= un e i l) /\ (forall l, 0 <= l < b -> un e i b < un e i l).
Proof.
  intros Hl Hi T b. unfold b, initial_labels. destruct (Z.leb_spec 0 i), (Z.ltb_spec i (nv e)); try lia. cbn [andb]. exact (best_ok top (old i) (nl e) (un e i) T Hl).
Qed.
Print Assumptions C114_initial.
Theorem C114_dual e x : sane e -> (forall c, 0 <= c < nc e -> 0 <= cost e c (reading (Z.to_nat (size e c)) (node e c) x)) -> exists d, initial_dual e x = Some d /\ tight e {| lab := x; lam := d |}.
Proof. intros W H. destruct (initial_dual_some e x W H) as (d & E). exists d. split; [exact E|exact (initial_dual_ok e x d W E)]. Qed.
Print Assumptions C114_dual.
Example C114_ex_dual : match initial_dual ex_energy (fun i => if i =? 0 then 0 else 1) with Some d => (d 0 0 0, d 0 1 1, d 0 2 1, d 1 0 0, d 1 1 1) = (3, 2, 2, 4, 3) | None => False end.
Proof. vm_compute. reflexivity. Qed.
(* REAL may be any arithmetic type: for fractions the rest is given out twice. *)
Definition share_fraction (k : positive) (v : Q) (i : Z) : Q := v / (Zpos k # 1) + (if i <? Z.rem (Z.quot (Qnum v) (Zpos (Qden v))) (Zpos k) then 1 else 0)%Q.
Theorem C114_fraction_refuted : exists v, ~ (share_fraction 2 v 0 + share_fraction 2 v 1 == v)%Q.
Proof. exists 1%Q. vm_compute. discriminate. Qed.
Print Assumptions C114_fraction_refuted.

(* ComputeHeight and ComputeHeightDiff sum over all cliques and places of a variable; with tight duals the heights of the labels sum to the energy. *)
Theorem C114_height e dual i l : height e dual i l = stack e dual i l.
Proof. exact (height_ok e dual i l). Qed.
Print Assumptions C114_height.
Theorem C114_height_diff e dual i a b : height_diff e dual i a b = stack e dual i a - stack e dual i b.
Proof. exact (height_diff_ok e dual i a b). Qed.
Print Assumptions C114_height_diff.
Theorem C114_heights e st : sane e -> tight e st -> energy_of e (lab st) = total (Z.to_nat (nv e)) (fun i => stack e (lam st) i (lab st i)).
Proof. rewrite energy_value. exact (tight_value e st). Qed.
Print Assumptions C114_heights.
(* PreEditDual: the table of a clique at a set is its energy after the move of that set, less the duals. *)
Theorem C114_table e st fus old c L S : sane e -> 0 <= c < nc e -> part (size e c) (node e c) L S -> let y i := if L i then fus i else lab st i in
  move_table e st fus old c S = cost e c (reading (Z.to_nat (size e c)) (node e c) y) - total (Z.to_nat (size e c)) (fun j => lam st c j (y (node e c j))).
Proof. exact (move_table_ok e st fus old c L S). Qed.
Print Assumptions C114_table.
(* PostEditDual: the duals sum to the energies again, whatever they were; it fails just if some energy is above its duals. *)
Theorem C114_post e st : sane e -> match post_edit e st with
  | Some st' => lab st' = lab st /\ (forall c, 0 <= c < nc e -> cost e c (reading (Z.to_nat (size e c)) (node e c) (lab st)) <= total (Z.to_nat (size e c)) (fun j => lam st c j (lab st (node e c j)))) /\ tight e st' /\ forall c j l, l <> lab st (node e c j) -> lam st' c j l = lam st c j l
  | None => exists c, 0 <= c < nc e /\ total (Z.to_nat (size e c)) (fun j => lam st c j (lab st (node e c j))) < cost e c (reading (Z.to_nat (size e c)) (node e c) (lab st))
  end.
Proof. exact (post_edit_ok e st). Qed.
Print Assumptions C114_post.
Example C114_ex_post : match post_edit ex_energy {| lab := fun i => 0; lam := fun _ j _ => 2 + j |} with Some st => (lam st 0 0 0, lam st 0 1 0, lam st 0 2 0, lam st 1 0 0, lam st 1 1 0, lam st 1 1 1) = (-1, 0, 1, 0, 0, 3) | None => False end.
Proof. vm_compute. reflexivity. Qed.

(* A round with the flow solver that ends with a cut through which nothing goes: PostEditDual does not fail, each variable keeps its label or takes the proposed one, the duals are tight, and the energy does not rise;
   for any bound that is submodular, nowhere below the table, and the same for no element. *)
Theorem C114_round z ub e st fus old G fl psi fl1 fl2 answer : sane e -> tight e st -> let g := move_net e st fus in let L i := answer i =? 1 in
  (forall c, 0 <= c < nc e -> ub (size e c) (move_table e st fus (old c) c) = Done (G c) /\ submodular (size e c) (G c) /\ (forall S, within (size e c) S -> move_table e st fus (old c) c S <= G c S) /\ G c 0 = move_table e st fus (old c) c 0) ->
  (forall j, phi_si fl j = 0 /\ phi_it fl j = 0) ->
  bound_all z ub g (Some (fun i => lab st i =? fus i)) (fun c => move_table e st fus (old c) c) (zrange 0 (nc e)) fl psi = Done (Some fl1) -> evolves g (init_all g fl1) fl2 -> closed_cut g fl2 L ->
  exists st', post_edit e (update e fus answer (fun c => ci (cl fl2 c)) st) = Some st' /\ tight e st' /\ (forall i, lab st' i = if L i then fus i else lab st i) /\ energy_of e (lab st') <= energy_of e (lab st).
Proof.
  intros W T g L U Z0 B V D. destruct (flow_round z ub e st fus old G fl psi fl1 fl2 answer W T U Z0 B V D) as (st' & X). exists st'. rewrite !energy_value. exact X.
Qed.
Print Assumptions C114_round.
(* two variables with labels 0 and 1 that a Potts clique wants to be the same: the cut moves the first one to label 1 *)
Definition pair_energy : mle := {| nl := 2; nv := 2; con := 0; un := fun i l => if i =? 0 then 5 * l else 4 * (1 - l); nc := 1; size := fun c => 2; node := fun _ j => j; cost := fun _ => potts 0 7 |}.
Definition pair_state : sp := {| lab := fun i => i; lam := match initial_dual pair_energy (fun i => i) with Some d => d | None => fun _ _ _ => 0 end |}.
Definition pair_net : net := move_net pair_energy pair_state (fun _ => 1).
Definition pair_table (c : Z) : table := move_table pair_energy pair_state (fun _ => 1) (fun _ => 0) c.
Definition pair_start : flow := {| cl := fun _ => {| alpha := fun _ => 0; ci := fun _ => 0; Clique.tight := fun _ => 3 |}; phi_si := fun _ => 0; phi_it := fun _ => 0 |}.
Definition pair_bound : flow := match bound_all None (fun _ t => Done t) pair_net (Some (fun i => lab pair_state i =? 1)) pair_table (zrange 0 1) pair_start (fun _ => 0) with Done (Some f) => f | _ => pair_start end.
Example C114_ex_round : sane pair_energy /\ tight pair_energy pair_state /\
  (forall c, 0 <= c < nc pair_energy -> submodular (size pair_energy c) (pair_table c)) /\ (forall j, phi_si pair_start j = 0 /\ phi_it pair_start j = 0) /\
  bound_all None (fun _ t => Done t) pair_net (Some (fun i => lab pair_state i =? 1)) pair_table (zrange 0 (nc pair_energy)) pair_start (fun _ => 0) = Done (Some pair_bound) /\
  evolves pair_net (init_all pair_net pair_bound) (init_all pair_net pair_bound) /\ closed_cut pair_net (init_all pair_net pair_bound) (fun _ => true) /\
  match post_edit pair_energy (update pair_energy (fun _ => 1) (fun _ => 1) (fun c => ci (cl (init_all pair_net pair_bound) c)) pair_state) with Some s => (lab s 0, lab s 1, energy_of pair_energy (lab pair_state), energy_of pair_energy (lab s)) = (1, 1, 7, 5) | None => False end.
Proof.
  split; [split; [cbn; lia|]; split; [cbn; lia|]; cbn; intros; split; [lia|]; intros; lia|]. split; [intros c Hc; cbn in Hc; replace c with 0 by lia; vm_compute; reflexivity|].
  split; [intros c Hc; cbn in Hc; replace c with 0 by lia; apply check_iff; [cbn; lia|vm_compute; reflexivity]|]. split; [intros; split; reflexivity|]. split.
  - change (nc pair_energy) with 1. assert (X : match bound_all None (fun _ t => Done t) pair_net (Some (fun i => lab pair_state i =? 1)) pair_table (zrange 0 1) pair_start (fun _ => 0) with Done (Some _) => true | _ => false end = true) by (vm_compute; reflexivity).
    unfold pair_bound. destruct (bound_all _ _ _ _ _ _ _ _) as [[f|]| | |]; [reflexivity|discriminate..].
  - split; [apply still|]. split; [split|].
    + intros j Hj. cbn in Hj. assert (X : j = 0 \/ j = 1) by lia. destruct X as [-> | ->]; vm_compute; reflexivity.
    + intros c u v _ _ _ _ H. discriminate.
    + vm_compute. reflexivity.
Qed.
(* ChenUpperBound is such a bound, unless it calls exit. *)
Theorem C114_chen z e st fus old c G : sane e -> 0 <= c < nc e -> upper_chen z (size e c) (move_table e st fus old c) = Done G ->
  submodular (size e c) G /\ (forall S, within (size e c) S -> move_table e st fus old c S <= G S) /\ G 0 = move_table e st fus old c 0.
Proof.
  intros (_ & _ & W) Hc H. destruct (W c Hc) as [Hs _]. assert (X := chen_ok z 1000 (size e c) (move_table e st fus old c) ltac:(lia)). assert (U : upper_chen z (size e c) (move_table e st fus old c) = chen_loop z 1000 (size e c) (move_table e st fus old c)) by reflexivity. rewrite <- U, H in X.
  destruct X as (A & B & _ & D & _). split; [exact A|]. split; [intros S _; apply B|exact D].
Qed.
Print Assumptions C114_chen.

(* Solve: if no round fails or raises the energy, neither does Solve; it does at most niters rounds, and stops earlier only at a proposal equal to the labels. *)
Theorem C114_solve e propose round : 0 < nl e -> (forall fus st, tight e st -> (forall i, 0 <= fus i < nl e) -> exists st', round fus st = Some st' /\ tight e st' /\ energy_of e (lab st') <= energy_of e (lab st)) ->
  forall n iter st, tight e st -> exists iter' st', solve n e propose round iter st = Some (iter', st') /\ tight e st' /\ energy_of e (lab st') <= energy_of e (lab st) /\ iter <= iter' <= iter + Z.of_nat n /\
  (iter' < iter + Z.of_nat n -> forall i, 0 <= i < nv e -> lab st' i = clip (nl e) (propose iter' st' i)).
Proof.
  intros Hl R n iter st T. destruct (solve_ok e propose round (tight e) Hl) with (n := n) (iter := iter) (st := st) as (it & st' & A & B & C & D & F); [|exact T|].
  - intros fus s HI HF. destruct (R fus s HI HF) as (s' & R1 & R2 & R3). rewrite !energy_value in R3. exists s'. auto.
  - exists it, st'. rewrite !energy_value. auto.
Qed.
Print Assumptions C114_solve.
(* Solve without a number of rounds "runs to completion": it does not end once the labels are not all the same, though no label changes any more, neither with alpha-expansion nor with the proposals by height. *)
Definition apart : mle := {| nl := 2; nv := 2; con := 0; un := fun i l => if i =? l then 0 else 1; nc := 0; size := fun _ => 0; node := fun _ _ => 0; cost := fun _ _ => 0 |}.
Theorem C114_completion_refuted : exists e st, sane e /\ tight e st /\ (forall i, 0 <= i < nv e -> lab st i = initial_labels 100 e fresh i) /\
  forall propose round, ((forall it s i, propose it s i = alpha_label it (nl e)) \/ (forall it s i, propose it s i = height_label (height e (lam s)) (nv e) (nl e) (lab s))) ->
  (forall fus s, exists s', round fus s = Some s' /\ (forall i, lab s' i = fus i \/ lab s' i = lab s i) /\ energy_of e (lab s') <= energy_of e (lab s)) ->
  forall n iter, 0 <= iter -> exists s, solve n e propose round iter st = Some (iter + Z.of_nat n, s) /\ forall i, 0 <= i < nv e -> lab s i = lab st i.
Proof.
  exists apart, {| lab := fun i => i; lam := fun _ _ _ => 0 |}. split; [split; [cbn; lia|]; split; [cbn; lia|]; cbn; intros; lia|]. split; [intros c Hc; cbn in Hc; lia|].
  split; [intros i Hi; cbn in Hi; assert (X : i = 0 \/ i = 1) by lia; destruct X as [-> | ->]; reflexivity|]. intros propose round P R.
  enough (G : forall n iter s, 0 <= iter -> lab s 0 = 0 -> lab s 1 = 1 -> exists s', solve n apart propose round iter s = Some (iter + Z.of_nat n, s') /\ lab s' 0 = 0 /\ lab s' 1 = 1).
  { intros n iter Hi. destruct (G n iter {| lab := fun i => i; lam := fun _ _ _ => 0 |} Hi eq_refl eq_refl) as (s' & E & A & B). exists s'. split; [exact E|]. intros i Hj. cbn in Hj. assert (X : i = 0 \/ i = 1) by lia. destruct X as [-> | ->]; cbn; assumption. }
  induction n as [|n IH]; intros iter s Hi A B; [exists s; cbn; rewrite Z.add_0_r; auto|]. cbn [solve]. set (fus := fun i => clip (nl apart) (propose iter s i)).
  assert (D : differs (nv apart) (lab s) fus = true).
  { apply differs_ok. destruct P as [P|P].
    - destruct (Z.eq_dec (alpha_label iter 2) 0) as [E|E]; [exists 1|exists 0]; unfold fus; rewrite P; (split; [cbn; lia|]); rewrite ?A, ?B; cbn [nl apart]; [rewrite E; cbn; lia|].
      destruct (alpha_ok 2 iter 0 ltac:(lia) Hi ltac:(lia)) as [Q _]. destruct (clip_ok 2 (alpha_label iter 2) ltac:(lia)) as [_ C]. rewrite C by exact Q. lia.
    - set (a := height_label (height apart (lam s)) (nv apart) (nl apart) (lab s)) in *. destruct (Z.eq_dec (clip 2 a) 0) as [E|E]; [exists 1|exists 0]; unfold fus; rewrite P; (split; [cbn; lia|]); rewrite ?A, ?B; fold a; cbn [nl apart]; lia. }
  rewrite D. cbn [negb]. destruct (R fus s) as (s1 & E & C & V). rewrite E.
  assert (F : fus 0 = fus 1) by (unfold fus; destruct P as [P|P]; rewrite !P; reflexivity).
  assert (K : lab s1 0 = 0 /\ lab s1 1 = 1).
  { assert (EE : forall x, energy_of apart x = (if 0 =? x 0 then 0 else 1) + (if 1 =? x 1 then 0 else 1)) by reflexivity. rewrite !EE, A, B in V.
    destruct (Z.eqb_spec 0 (lab s1 0)), (Z.eqb_spec 1 (lab s1 1)); cbn in V; lia. }
  destruct (IH (iter + 1) s1 ltac:(lia) (proj1 K) (proj2 K)) as (s' & E' & K'). exists s'. split; [rewrite E'; f_equal; f_equal; lia|exact K'].
Qed.
Print Assumptions C114_completion_refuted.
(* The proposals: alpha-expansion proposes each label once in as many rounds as there are labels; the other one takes a label of largest sum of positive height differences. *)
Theorem C114_alpha n iter l : 0 < n -> 0 <= iter -> 0 <= l < n -> 0 <= alpha_label iter n < n /\ exists k, 0 <= k < n /\ alpha_label (iter + k) n = l.
Proof. exact (alpha_ok n iter l). Qed.
Print Assumptions C114_alpha.
Theorem C114_height_label h n m labels : 0 < m -> 0 <= height_label h n m labels < m /\ forall l, 0 <= l < m -> rise h n labels l <= rise h n labels (height_label h n m labels).
Proof. exact (height_label_ok h n m labels). Qed.
Print Assumptions C114_height_label.
Example C114_ex_height_label : height_label (fun i l => 10 - (l - 2) * (l - 2) * -1 + i * l) 3 4 (fun _ => 3) = 1.
Proof. vm_compute. reflexivity. Qed.
Theorem C114_clip n l : 0 < n -> 0 <= clip n l < n /\ (0 <= l < n -> clip n l = l).
Proof. exact (clip_ok n l). Qed.
Print Assumptions C114_clip.
