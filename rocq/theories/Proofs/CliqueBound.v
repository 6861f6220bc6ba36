From Coq Require Import ZArith List Bool Lia.
From Verif Require Import Lib.Grid Model.Submodular Spec.Submodular Model.Clique Spec.Clique Proofs.Submodular Proofs.SubmodularLinear Proofs.SubmodularNormal Proofs.Clique Proofs.CliqueTight.
Import ListNotations.
Open Scope Z_scope.

(* any number of pushes, each within its capacity *)
Fixpoint legal (n : Z) (c : clique) (l : list (Z * Z * Z)) : Prop :=
  match l with
  | [] => True
  | (u, v, d) :: l => 0 <= u < n /\ 0 <= v < n /\ 0 <= d /\ (u = v \/ exists k, capacity n (alpha c) u v k /\ d <= k) /\ forall c', push n c u v d = Done c' -> legal n c' l
  end.
Lemma pushes_ok n : 0 <= n < 32 -> forall l c, normal n (alpha c) -> (forall u, 0 <= u < n -> least_tight n (alpha c) u (tight c u)) -> legal n c l ->
  exists c', pushes n c l = Done c' /\ normal n (alpha c') /\ (forall u, 0 <= u < n -> least_tight n (alpha c') u (tight c' u)) /\
  (forall S, within n S -> told n (alpha c') (ci c') S = told n (alpha c) (ci c) S) /\ contained n (alpha c') (alpha c).
Proof.
  intros Hn. induction l as [|[[u v] d] l IH]; intros c N T L.
  - exists c. split; [reflexivity|]. split; [exact N|]. split; [exact T|]. split; [reflexivity|]. intros S _. reflexivity.
  - destruct L as (Hu & Hv & Hd & K & L). destruct (push_ok n c u v d Hn Hu Hv) as (c1 & E1 & A1 & B1 & C1 & D1).
    assert (N1 : normal n (alpha c1)).
    { destruct K as [K|(k & K1 & K2)]; [apply (shift_normal n (alpha c) (alpha c1) u v d 0); auto; lia|]. apply (shift_normal n (alpha c) (alpha c1) u v d k); auto; lia. }
    destruct (tight_ok n (alpha c1) (tight c) ltac:(lia) N1) as (M & EM & LM & _). rewrite D1 in EM.
    assert (EM' : tight c1 = M) by congruence. rewrite <- EM' in LM.
    destruct (IH c1 N1 LM (L c1 E1)) as (c2 & E2 & N2 & T2 & F2 & G2). exists c2. cbn [pushes]. rewrite E1. cbn [bind]. split; [exact E2|]. split; [exact N2|]. split; [exact T2|]. split.
    + intros S W. rewrite F2, C1 by exact W. reflexivity.
    + intros S W. rewrite G2, B1 by exact W. reflexivity.
Qed.

(* ResetAlpha *)
Lemma fold_copy (e : table) k f : let r := fold_left (fun f a => upd f a (e a)) (zseq 0 k) f in
  (forall S, 0 <= S < Z.of_nat k -> r S = e S) /\ (forall S, ~ 0 <= S < Z.of_nat k -> r S = f S).
Proof.
  induction k as [|k [IH1 IH2]]; cbv zeta in *; [split; [intros; lia|reflexivity]|]. rewrite zseq_last, fold_left_app. cbn [fold_left]. unfold upd at 1 3. split; intros S H.
  - destruct (Z.eqb_spec S (0 + Z.of_nat k)) as [->|]; [reflexivity|]. apply IH1. lia.
  - destruct (Z.eqb_spec S (0 + Z.of_nat k)); [lia|]. apply IH2. lia.
Qed.
Lemma reset_ok n e c : 1 <= n < 32 -> exists c', reset_clique n e c = Done c' /\ same n (alpha c') e /\ contained n (alpha c') (alpha c) /\ (forall S, within n S -> told n (alpha c') (ci c') S = e S).
Proof.
  intros Hn. assert (P := pow_pos n ltac:(lia)). unfold reset_clique. cbv zeta. destruct (fold_copy e (Z.to_nat (2 ^ n)) (alpha c)) as [A B]. cbv zeta in *. fold (zrange 0 (2 ^ n)) in *.
  set (f := fold_left _ _ _) in *. clearbody f. unfold min_tight. destruct (Z.eqb_spec n 0); [lia|]. cbn [bind]. eexists. split; [reflexivity|]. cbn [alpha ci tight].
  assert (A' : same n f e) by (intros S [W1 W2]; apply A; lia).
  split; [exact A'|]. split; [intros S W; apply B; intros X; apply W; split; lia|]. intros S W. unfold told. rewrite A' by exact W. unfold weight.
  rewrite (weigh_psi _ _ (fun _ => 0)); [|intros i Hi; destruct (Z.leb_spec 0 i), (Z.ltb_spec i n); try lia; reflexivity].
  assert (Q : forall m, weigh m (fun _ => 0) S = 0). { induction m as [|m IH]; cbn [weigh]; [reflexivity|]. rewrite IH. destruct (Z.testbit S (Z.of_nat m)); reflexivity. }
  rewrite Q. lia.
Qed.

(* UpperBoundCliques *)
Lemma fixed_spec n nodes fv : 0 <= n < 32 -> within n (fixed_set n nodes fv) /\ forall i, 0 <= i < n -> Z.testbit (fixed_set n nodes fv) i = fv (nodes i).
Proof.
  intros Hn. unfold fixed_set, zrange. assert (G : forall k, Z.of_nat k <= n -> let s := fold_left (fun s i => Z.lor s (Z.shiftl (Z.b2z (fv (nodes i))) i)) (zseq 0 k) 0 in
    within (Z.of_nat k) s /\ forall i, 0 <= i < Z.of_nat k -> Z.testbit s i = fv (nodes i)).
  { induction k as [|k IH]; intros Hk; cbv zeta in *; [split; [cbn; unfold within; cbn; lia|intros; lia]|]. rewrite zseq_last, fold_left_app. cbn [fold_left]. destruct IH as [W I]; [lia|].
    set (s := fold_left _ _ 0) in *. clearbody s. rewrite Z.add_0_l.
    assert (W' : within (Z.of_nat (S k)) s) by (destruct W; split; [assumption|]; eapply Z.lt_le_trans; [eassumption|]; apply Z.pow_le_mono_r; lia).
    assert (X : Z.shiftl (Z.b2z (fv (nodes (Z.of_nat k)))) (Z.of_nat k) = if fv (nodes (Z.of_nat k)) then 2 ^ Z.of_nat k else 0).
    { rewrite Z.shiftl_mul_pow2 by lia. destruct (fv (nodes (Z.of_nat k))); cbn [Z.b2z]; lia. }
    rewrite X. clear X. split.
    - apply within_lor; [lia|exact W'|]. destruct (fv (nodes (Z.of_nat k))); [apply within_pow; lia|apply within_0; lia].
    - intros i Hi. rewrite Z.lor_spec. destruct (Z.eq_dec i (Z.of_nat k)) as [->|N].
      + rewrite (bit_high (Z.of_nat k)) by (assumption || lia). cbn [orb]. destruct (fv (nodes (Z.of_nat k))); [rewrite pow_spec by lia; apply Z.eqb_refl|apply Z.bits_0].
      + rewrite I by lia. destruct (fv (nodes (Z.of_nat k))); [rewrite pow_spec by lia; destruct (Z.eqb_spec (Z.of_nat k) i); [lia|]; apply orb_false_r|rewrite Z.bits_0; apply orb_false_r]. }
  assert (H := G (Z.to_nat n) ltac:(lia)). cbv zeta in H. rewrite Z2Nat.id in H by lia. exact H.
Qed.
Lemma fold_set (p : Z -> Z) k m : let r := fold_left (fun m i => upd m i (p i)) (zseq 0 k) m in
  (forall i, 0 <= i < Z.of_nat k -> r i = p i) /\ (forall i, ~ 0 <= i < Z.of_nat k -> r i = m i).
Proof. apply (fold_copy p k m). Qed.
Lemma total_upd N (L : Z -> bool) phi p d : labelled N L (upd phi p (phi p + d)) = labelled N L phi + (if (0 <=? p) && (p <? Z.of_nat N) && L p then d else 0).
Proof.
  unfold labelled. induction N as [|N IH]; cbn [total].
  - destruct (Z.leb_spec 0 p), (Z.ltb_spec p (Z.of_nat 0)); try lia; reflexivity.
  - rewrite IH. unfold upd. destruct (Z.eqb_spec (Z.of_nat N) p) as [<-|X].
    + destruct (Z.leb_spec 0 (Z.of_nat N)), (Z.ltb_spec (Z.of_nat N) (Z.of_nat N)), (Z.ltb_spec (Z.of_nat N) (Z.of_nat (S N))); try lia; cbn [andb]; destruct (L (Z.of_nat N)); lia.
    + destruct (Z.leb_spec 0 p), (Z.ltb_spec p (Z.of_nat N)), (Z.ltb_spec p (Z.of_nat (S N))); try lia; cbn [andb]; destruct (L (Z.of_nat N)), (L p); lia.
Qed.
Lemma phi_sum N (L : Z -> bool) nodes psi phi S k : (forall i, 0 <= i < Z.of_nat k -> 0 <= nodes i < Z.of_nat N) -> (forall i, 0 <= i < Z.of_nat k -> Z.testbit S i = L (nodes i)) ->
  labelled N L (fold_left (fun phi i => upd phi (nodes i) (phi (nodes i) + psi i)) (zseq 0 k) phi) = labelled N L phi + weigh k psi S.
Proof.
  induction k as [|k IH]; intros A B; [cbn; lia|]. rewrite zseq_last, fold_left_app. cbn [fold_left weigh]. rewrite Z.add_0_l, total_upd, IH by (intros; (apply A || apply B); lia).
  rewrite (B (Z.of_nat k)) by lia. specialize (A (Z.of_nat k) ltac:(lia)). destruct (Z.leb_spec 0 (nodes (Z.of_nat k))), (Z.ltb_spec (nodes (Z.of_nat k)) (Z.of_nat N)); try lia. cbn [andb]. lia.
Qed.
Lemma phi_other nodes psi k : forall phi j, (forall i, 0 <= i < Z.of_nat k -> nodes i <> j) -> fold_left (fun phi i => upd phi (nodes i) (phi (nodes i) + psi i)) (zseq 0 k) phi j = phi j.
Proof.
  induction k as [|k IH]; intros phi j A; [reflexivity|]. rewrite zseq_last, fold_left_app. cbn [fold_left]. rewrite Z.add_0_l. unfold upd at 1.
  destruct (Z.eqb_spec j (nodes (Z.of_nat k))) as [->|]; [exfalso; apply (A (Z.of_nat k)); [lia|reflexivity]|]. apply IH. intros; apply A; lia.
Qed.
Definition freed (n : Z) (nodes : Z -> Z) (fixed : option (Z -> bool)) (g : table) : table := match fixed with None => g | Some v => zero_marginal n (fixed_set n nodes v) g end.
Lemma bound_ok z ub n nodes fixed energy c psi phi N g : 1 <= n < 32 -> (forall i, 0 <= i < n -> 0 <= nodes i < Z.of_nat N) -> ub n energy = Done g -> submodular n g ->
  exists c' psi' phi', bound_clique z ub n nodes fixed energy c psi phi = Done (Some (c', psi', phi')) /\
  normal n (alpha c') /\ (forall u, 0 <= u < n -> least_tight n (alpha c') u (tight c' u)) /\
  (forall S, within n S -> told n (alpha c') (ci c') S = freed n nodes fixed g S - freed n nodes fixed g 0) /\
  (forall L S, part n nodes L S -> alpha c' S - labelled N L phi' = freed n nodes fixed g S - freed n nodes fixed g 0 - labelled N L phi) /\
  (forall j, (forall i, 0 <= i < n -> nodes i <> j) -> phi' j = phi j).
Proof.
  intros Hn HN E Sub. unfold bound_clique. rewrite E. cbn [bind]. fold (freed n nodes fixed g). set (h := freed n nodes fixed g).
  assert (Sh : submodular n h). { unfold h, freed. destruct fixed as [fv|]; [|exact Sub]. apply zero_marginal_submodular; [lia| |exact Sub].
    destruct (fixed_spec n nodes fv ltac:(lia)) as [[W1 W2] _]. split; [exact W1|]. eapply Z.lt_trans; [exact W2|]. apply Z.pow_lt_mono_r; lia. }
  clearbody h. destruct (normalize_ok z n h psi ltac:(lia) Sh) as (a & p & En & A1 & A2 & A3 & A4 & A5 & A6). rewrite En. cbn [bind].
  assert (Na : normal n a) by (repeat split; assumption). destruct (tight_ok n a (tight c) ltac:(lia) Na) as (M & EM & LM & _). rewrite EM. cbn [bind].
  do 3 eexists. split; [reflexivity|]. cbn [alpha ci tight]. split; [exact Na|]. split; [exact LM|]. split; [|split].
  - intros S W. unfold told. rewrite A1 by exact W. unfold zrange. destruct (fold_set (fun i => - p i) (Z.to_nat n) (ci c)) as [C1 _]. cbv zeta in C1. unfold weight.
    rewrite (weigh_psi _ (fold_left _ _ _) (fun i => - p i)) by (intros i Hi; apply C1; exact Hi). rewrite weigh_opp. lia.
  - intros L S [W P]. rewrite A1 by exact W. unfold zrange. rewrite (phi_sum N L nodes p phi S) by (intros; (apply HN || apply P); lia). unfold weight. lia.
  - intros j H. unfold zrange. apply phi_other. intros i Hi. apply H. lia.
Qed.

(* terminals *)
Lemma unary_ok c si it e0 e1 : let '(c', si', it') := unary (c, si, it) e0 e1 in
  (forall x : bool, c' + (if x then it' else si') = c + (if x then it else si) + (if x then e1 else e0)) /\ si <= si' /\ it <= it' /\ (0 <= e0 -> 0 <= e1 -> c' = c) .
Proof.
  unfold unary. destruct (Z.ltb_spec e0 0); [destruct (Z.ltb_spec (e1 - e0) 0)|destruct (Z.ltb_spec e1 0)]; (split; [intros []; lia|lia]).
Qed.
Lemma saturate_ok a b p q : exists p' q' s, saturate a b p q = Some (p', q', s) /\ p' - p = q' - q /\ p' <= a /\ q' <= b /\ (p' = a \/ q' = b) /\
  (s = Source <-> p' < a) /\ (s = Sink <-> q' < b) /\ (s = Free <-> p' = a /\ q' = b).
Proof.
  unfold saturate. cbv zeta. set (p' := p + Z.min (a - p) (b - q)). set (q' := q + Z.min (a - p) (b - q)).
  destruct (Z.ltb_spec p' a); [|destruct (Z.ltb_spec q' b)]; [| |replace ((a =? p') && (b =? q')) with true by (symmetry; rewrite andb_true_iff, !Z.eqb_eq; lia)];
  do 3 eexists; (split; [reflexivity|]); repeat split; try lia; intros; (discriminate || lia || reflexivity).
Qed.
