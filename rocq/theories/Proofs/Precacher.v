From Coq Require Import ZArith List Bool Lia.
From Verif Require Import Model.Precacher Spec.Precacher.
Import ListNotations.
Open Scope Z_scope.

(** ** the ring *)
Fixpoint chain (L : list (Z * Z)) (a b : Z) : Prop := match L with [] => a = b | (o, n) :: r => o = a /\ 0 < n /\ chain r (a + n) b end.
Lemma chain_app L1 L2 a b : chain (L1 ++ L2) a b <-> exists m, chain L1 a m /\ chain L2 m b.
Proof.
  revert a. induction L1 as [|[o n] L1 IH]; intro a; cbn [app chain].
  - split; [ eauto | intros (m & -> & H); auto ].
  - rewrite IH. split; [ intros (-> & P & m & A & B); exists m; auto | intros (m & (-> & P & A) & B); eauto ].
Qed.
Lemma chain_le L a b : chain L a b -> a <= b.
Proof. revert a. induction L as [|[o n] L IH]; intros a; cbn [chain]; [ lia |]. intros (_ & P & H). apply IH in H. lia. Qed.
Lemma chain_in L a b o n : chain L a b -> In (o, n) L -> 0 < n /\ a <= o /\ o + n <= b.
Proof.
  revert a. induction L as [|[o' n'] L IH]; intros a; cbn [chain In]; [ tauto |]. intros (-> & P & H) [E | I].
  - assert (a = o /\ n' = n) as [-> ->] by (split; congruence). apply chain_le in H. lia.
  - apply (IH (a + n')) in H; auto. lia.
Qed.
Lemma chain_pos L a b : chain L a b -> L <> [] -> a < b.
Proof. destruct L as [|[o n] L]; [ congruence |]. cbn [chain]. intros (_ & P & H) _. apply chain_le in H. lia. Qed.
Definition ring (B f x : Z) (L : list (Z * Z)) : Prop :=
  (L = [] /\ f = NIL /\ x = NIL) \/
  (L <> [] /\ 0 <= f /\ x <= B /\ chain L f x) \/
  (exists L1 L2 E, L = L1 ++ L2 /\ L1 <> [] /\ L2 <> [] /\ chain L1 f E /\ chain L2 0 x /\ E <= B /\ x <= f).
Lemma ring_head B f x o n L : ring B f x ((o, n) :: L) -> f = o.
Proof.
  intros [(E & _) | [(_ & _ & _ & C) | (L1 & L2 & E & EL & N1 & N2 & C1 & C2 & _)]]; [ discriminate | cbn in C; now destruct C |].
  destruct L1 as [|[o' n'] L1]; [ congruence |]. cbn [app] in EL. assert (o = o') by congruence. cbn in C1. destruct C1. congruence.
Qed.
Lemma ring_tail B f x p o n L : ring B f x (p :: (o, n) :: L) -> ring B o x ((o, n) :: L).
Proof.
  destruct p as [o' n']. intros [(E & _) | [(_ & F & X & C) | (L1 & L2 & E & EL & N1 & N2 & C1 & C2 & EB & XF)]]; [ discriminate | |].
  - right. left. cbn [chain] in C. destruct C as (-> & P & -> & P' & C). repeat split; auto; try lia. discriminate.
  - destruct L1 as [|[o1 n1] L1]; [ congruence |]. destruct L1 as [|[o2 n2] L1].
    + cbn [app] in EL. assert (L2 = (o, n) :: L) as -> by congruence. right. left. pose proof C2 as (-> & P & C). assert (E' : f + n1 = E) by (cbn in C1; tauto). cbn [chain] in C1. destruct C1 as (-> & P1 & _).
      split; [ discriminate |]. split; [ lia |]. split; [ lia | exact C2 ].
    + cbn [app] in EL. assert (o2 = o /\ n2 = n) as [-> ->] by (split; congruence). assert (L = L1 ++ L2) as -> by congruence.
      right. right. exists ((o, n) :: L1), L2, E. cbn [chain] in C1 |- *. destruct C1 as (-> & P1 & -> & P2 & C1). repeat split; auto; try discriminate; lia.
Qed.
Definition apart (o n o' n' : Z) : Prop := o + n <= o' \/ o' + n' <= o.
Lemma place_ring w n L off f x : ring (size w) (first w) (next w) L -> 0 < n -> 0 <= size w < NIL -> place w n = Some (off, f, x) ->
  ring (size w) f x (L ++ [(off, n)]) /\ forall o m, In (o, m) L -> apart off n o m.
Proof.
  intros R Pn S E. unfold place in E. destruct R as [(-> & F & X) | [(N & F & X & C) | (L1 & L2 & E2 & EL & N1 & N2 & C1 & C2 & EB & XF)]].
  - rewrite F, X, Z.eqb_refl in E. cbn [orb negb andb] in E. destruct (Z.ltb_spec (size w) n); [ discriminate |].
    assert (off = 0 /\ f = 0 /\ x = n) as (-> & -> & ->) by (repeat split; congruence). split; [| intros o m [] ].
    right. left. cbn [app chain]. repeat split; try lia. discriminate.
  - pose proof (chain_pos _ _ _ C N) as FX. assert (first w <> NIL) as F' by lia. assert (next w <> NIL) as X' by lia.
    apply Z.eqb_neq in F', X'. rewrite F', X', (proj2 (Z.ltb_lt (first w) (next w)) FX) in E. cbn [orb negb andb] in E.
    destruct (Z.ltb_spec (size w) (next w + n)).
    + destruct (Z.ltb_spec (first w) n); [ discriminate |]. destruct (Z.ltb_spec (size w) n); [ discriminate |]. cbn [orb] in E.
      assert (off = 0 /\ f = first w /\ x = n) as (-> & -> & ->) by (repeat split; congruence). split.
      * right. right. exists L, [(0, n)], (next w). cbn [chain]. repeat split; auto; try lia. discriminate.
      * intros o m I. apply (chain_in _ _ _ _ _ C) in I. unfold apart. lia.
    + assert (off = next w /\ f = first w /\ x = next w + n) as (-> & -> & ->) by (repeat split; congruence). split.
      * right. left. repeat split; try lia. { intro K. apply app_eq_nil in K. now destruct K. } apply chain_app. exists (next w). cbn [chain]. auto.
      * intros o m I. apply (chain_in _ _ _ _ _ C) in I. unfold apart. lia.
  - pose proof (chain_pos _ _ _ C1 N1) as P1. pose proof (chain_pos _ _ _ C2 N2) as P2. assert (first w <> NIL) as F' by lia. assert (next w <> NIL) as X' by lia.
    apply Z.eqb_neq in F', X'. rewrite F', X' in E. destruct (Z.ltb_spec (first w) (next w)); [ lia |]. cbn [orb] in E. destruct (Z.ltb_spec (next w + n) (first w)); [| discriminate ].
    assert (off = next w /\ f = first w /\ x = next w + n) as (-> & -> & ->) by (repeat split; congruence). split.
    + right. right. exists L1, (L2 ++ [(next w, n)]), E2. subst L. rewrite <- app_assoc. repeat split; auto; try lia. { intro K. apply app_eq_nil in K. now destruct K. } apply chain_app. exists (next w). cbn [chain]. auto.
    + intros o m I. subst L. apply in_app_iff in I. unfold apart. destruct I as [I|I]; [ apply (chain_in _ _ _ _ _ C1) in I | apply (chain_in _ _ _ _ _ C2) in I ]; lia.
Qed.
(** ** memory *)
Lemma read_write_same b off l : read (write b off l) off (Z.of_nat (length l)) = l.
Proof.
  unfold read, write. rewrite Nat2Z.id. apply nth_ext with 0 0; rewrite map_length, seq_length; auto. intros k K.
  rewrite nth_indep with (d' := (fun k => if (off <=? off + Z.of_nat k) && (off + Z.of_nat k <? off + Z.of_nat (length l)) then nth (Z.to_nat (off + Z.of_nat k - off)) l 0 else b (off + Z.of_nat k)) 0%nat) by (rewrite map_length, seq_length; auto).
  rewrite (map_nth (fun k => if (off <=? off + Z.of_nat k) && (off + Z.of_nat k <? off + Z.of_nat (length l)) then nth (Z.to_nat (off + Z.of_nat k - off)) l 0 else b (off + Z.of_nat k))).
  rewrite seq_nth by auto. cbn [Nat.add]. rewrite (proj2 (Z.leb_le off (off + Z.of_nat k))), (proj2 (Z.ltb_lt (off + Z.of_nat k) (off + Z.of_nat (length l)))) by lia. cbn [andb].
  f_equal. lia.
Qed.
Lemma read_write_apart b off l o n : apart off (Z.of_nat (length l)) o n -> read (write b off l) o n = read b o n.
Proof.
  intro A. unfold read. apply map_ext_in. intros k K. apply in_seq in K. unfold write. destruct (Z.leb_spec off (o + Z.of_nat k)); [| reflexivity ]. destruct (Z.ltb_spec (o + Z.of_nat k) (off + Z.of_nat (length l))); [| reflexivity ].
  exfalso. unfold apart in A. lia.
Qed.

Section Inv.
Variable src : Z -> option (list Z).
Hypothesis end_nil : forall p, src NIL = Some p -> p = [].

Fixpoint cached (b : Z -> Z) (i : Z) (L : list (Z * Z)) : Prop := match L with [] => True | (o, n) :: r => src i = Some (read b o n) /\ cached b (i + 1) r end.
Lemma cached_write b off l : forall L i, (forall o n, In (o, n) L -> apart off (Z.of_nat (length l)) o n) -> cached b i L -> cached (write b off l) i L.
Proof.
  induction L as [|[o n] L IH]; intros i A; cbn [cached]; auto. intros (E & C). rewrite read_write_apart by (apply A; now left). split; auto. apply IH; auto. intros. apply A. now right.
Qed.
Lemma cached_app b : forall L i o n, cached b i L -> src (i + Z.of_nat (length L)) = Some (read b o n) -> cached b i (L ++ [(o, n)]).
Proof.
  induction L as [|[o' n'] L IH]; intros i o n; cbn [cached app length].
  - rewrite Z.add_0_r. auto.
  - intros (E & C) H. split; auto. apply IH; auto. rewrite <- H. f_equal. lia.
Qed.
Definition held (g : Z) (p : packet) : list (Z * Z) := match p with View g' o n => if g' =? g then [(o, n)] else [] | Own _ => [] end.
Definition core (g : Z) (p : packet) (w : wst) : Prop :=
  ring (size w) (first w) (next w) (held g p ++ cache w) /\ 0 <= size w < NIL /\ 0 <= expected w /\ precache w = expected w + Z.of_nat (length (cache w)) /\ precache w <= NIL /\
  cached (buf w) (expected w) (cache w) /\ (tgt_idx w = NIL -> tgt w = []) /\ (tgt_idx w <> NIL -> src (tgt_idx w) = Some (tgt w)).
Definition at_src (g : Z) (p : packet) (w : wst) (i : Z) : Prop :=
  match p with Own l => src i = Some l | View g' o n => g' = g /\ src i = Some (read (buf w) o n) end.
Definition winv (g : Z) (p : packet) (a : Z) (w : wst) : Prop :=
  core g p w /\ ((a = NIL /\ expected w = 0 /\ held g p = []) \/ (0 <= a < NIL /\ expected w = a + 1 /\ at_src g p w a)).
Lemma u64_id v : 0 <= v <= NIL -> u64 v = v.
Proof. intro B. unfold u64, W64, NIL in *. apply Z.mod_small. lia. Qed.

Lemma cache_one_ok g p a w w' n : winv g p a w -> cache_one src w = Some (w', n) -> winv g p a w' /\ size w' = size w.
Proof.
  intros ((R & S & X0 & P & PN & C & T0 & T1) & A) E. unfold cache_one, cache_next in E.
  assert (K : forall q, (if precache w =? tgt_idx w then Some (tgt w) else src (precache w)) = Some q -> (precache w = NIL -> q = []) /\ (precache w <> NIL -> src (precache w) = Some q)).
  { intros q. destruct (Z.eqb_spec (precache w) (tgt_idx w)) as [Et|Et]; intro Q.
    - assert (q = tgt w) as -> by congruence. rewrite Et. auto.
    - split; auto. intro Np. rewrite Np in Q. now apply end_nil. }
  destruct (if precache w =? tgt_idx w then Some (tgt w) else src (precache w)) as [q|]; [| discriminate ]. destruct (K q eq_refl) as (K0 & K1). clear K.
  cbn [size cache buf expected precache first next tgt_idx tgt at_end] in E.
  destruct (Z.eqb_spec (Z.of_nat (length q)) 0) as [L0|L0].
  { destruct q; [| discriminate ]. rewrite Z.eqb_refl in E. assert (w' = Wst (size w) (cache w) (buf w) (expected w) (precache w) (first w) (next w) (precache w) [] true) as -> by congruence.
    split; [| reflexivity ]. split; [| exact A ]. unfold core. cbn [size cache buf expected precache first next tgt_idx tgt at_end]. repeat (split; [ assumption |]). auto. }
  assert (Np : precache w <> NIL) by (intro Z; rewrite (K0 Z) in L0; now apply L0).
  destruct (place _ _) as [[[off f] x]|] eqn:Pl.
  - cbn [size cache buf expected precache first next tgt_idx tgt at_end] in E. rewrite (proj2 (Z.eqb_neq _ 0)) in E by auto.
    assert (w' = Wst (size w) (cache w ++ [(off, Z.of_nat (length q))]) (write (buf w) off q) (expected w) (u64 (precache w + 1)) f x (precache w) q false) as -> by congruence.
    rewrite u64_id by lia.
    pose proof (place_ring (Wst (size w) (cache w) (buf w) (expected w) (precache w) (first w) (next w) (precache w) q false) (Z.of_nat (length q)) (held g p ++ cache w) off f x R ltac:(lia) S Pl) as (R' & D). cbn [size] in R'.
    split; [| reflexivity ]. split.
    + unfold core. cbn [size cache buf expected precache first next tgt_idx tgt at_end]. rewrite app_assoc. repeat (split; [ assumption |]). rewrite app_length. cbn [length]. split; [ lia |]. split; [ lia |].
      split; [| split; [ congruence | auto ] ]. apply cached_app.
      * apply cached_write; auto. intros o n0 I. apply D. apply in_or_app. now right.
      * rewrite read_write_same. rewrite <- P. auto.
    + cbn [expected]. destruct A as [(A1 & A2 & A3) | (A1 & A2 & A3)]; [ left; auto | right; split; [ auto | split; [ auto |] ] ]. unfold at_src in *. destruct p as [l|g' o n0]; auto. destruct A3 as (-> & A3). split; auto. cbn [buf].
      rewrite read_write_apart; auto. apply D. apply in_or_app. left. unfold held. rewrite Z.eqb_refl. now left.
  - rewrite Z.eqb_refl in E. assert (w' = Wst (size w) (cache w) (buf w) (expected w) (precache w) (first w) (next w) (precache w) q false) as -> by congruence.
    split; [| reflexivity ]. split; [| exact A ]. unfold core. cbn [size cache buf expected precache first next tgt_idx tgt at_end]. repeat (split; [ assumption |]). exact K1.
Qed.
Lemma pop_one g p w o n r : core g p w -> cache w = (o, n) :: r ->
  core g (View g o n) (Wst (size w) r (buf w) (u64 (expected w + 1)) (precache w) o (next w) (tgt_idx w) (tgt w) (at_end w)) /\ u64 (expected w + 1) = expected w + 1 /\ src (expected w) = Some (read (buf w) o n).
Proof.
  intros (R & S & X0 & P & PN & C & T) E. rewrite E in *. cbn [length cached] in *. destruct C as (C0 & C). rewrite u64_id by lia. split; [| auto ].
  unfold core. cbn [size cache buf expected precache first next tgt_idx tgt at_end]. cbn [held]. rewrite Z.eqb_refl. cbn [app]. split.
  - destruct (held g p) as [|h t] eqn:H; cbn [app] in R. { pose proof (ring_head _ _ _ _ _ _ R) as Hf. rewrite Hf in R. exact R. }
    assert (t = []) as ->. { unfold held in H. destruct p; [ discriminate |]. destruct (_ =? _); congruence. } cbn [app] in R. now apply ring_tail in R.
  - repeat (split; [ lia || assumption |]). exact T.
Qed.
Lemma pop_ok g : forall k w p, core g p w -> (k <= length (cache w))%nat ->
  exists w' p', pop g k w p = Some (w', p') /\ core g p' w' /\ expected w' = expected w + Z.of_nat k /\ size w' = size w /\ buf w' = buf w /\ ((0 < k)%nat -> at_src g p' w' (expected w' - 1)).
Proof.
  induction k as [|k IH]; intros w p C L.
  - exists w, p. cbn [pop]. repeat (split; [ first [ reflexivity | assumption | lia ] |]). lia.
  - cbn [pop]. destruct (cache w) as [|[o n] r] eqn:E; [ cbn in L; lia |]. cbn [length] in L. destruct (pop_one g p w o n r C E) as (C' & U & A). rewrite U in *.
    destruct (IH (Wst (size w) r (buf w) (expected w + 1) (precache w) o (next w) (tgt_idx w) (tgt w) (at_end w)) (View g o n) C' ltac:(cbn [cache]; lia)) as (w' & p' & E' & C'' & X & S & B & Q).
    exists w', p'. cbn [expected size buf] in *. split; [ exact E' |]. split; [ exact C'' |]. split; [ lia |]. split; [ auto |]. split; [ auto |]. intros _.
    destruct k as [|k]; [| apply Q; lia ]. cbn [pop] in E'. assert (w' = Wst (size w) r (buf w) (expected w + 1) (precache w) o (next w) (tgt_idx w) (tgt w) (at_end w)) as -> by congruence. assert (p' = View g o n) as -> by congruence.
    unfold at_src. cbn [buf expected]. split; auto. rewrite <- A. f_equal. lia.
Qed.
Lemma fetch_ok g w e i w' p' a' : 0 <= i < NIL -> core g (Own []) (Wst (size w) [] (buf w) (u64 (i + 1)) (u64 (i + 1)) NIL NIL (tgt_idx w) (tgt w) e) -> fetch src w i e = Answer w' p' a' ->
  winv g p' a' w' /\ a' = i /\ size w' = size w.
Proof.
  intros B C E. unfold fetch in E. destruct (src i) as [l|] eqn:Ei; [| discriminate ]. assert (w' = Wst (size w) [] (buf w) (u64 (i + 1)) (u64 (i + 1)) NIL NIL (tgt_idx w) (tgt w) e) as -> by congruence.
  assert (p' = Own l) as -> by congruence. assert (a' = i) as -> by congruence. split; [| auto ]. split; [ exact C |]. right. cbn [expected at_src]. rewrite u64_id by lia. auto.
Qed.
Lemma reply_ok g w i p a : winv g p a w -> 0 <= i < NIL ->
  match reply src g w i p a with
  | Throws => src i = None
  | Undefined => False
  | Answer w' p' a' => winv g p' a' w' /\ a' = i /\ size w' = size w /\ (a = i -> p' = p /\ w' = w)
  end.
Proof.
  intros (C & A) B. pose proof C as (R & S & X0 & P & PN & Cc & T). unfold reply.
  assert (Cf : forall e, core g (Own []) (Wst (size w) [] (buf w) (u64 (i + 1)) (u64 (i + 1)) NIL NIL (tgt_idx w) (tgt w) e)).
  { intro e. unfold core. cbn [size cache buf expected precache first next tgt_idx tgt at_end held app length cached]. rewrite u64_id by lia. split; [ left; auto |]. repeat (split; [ auto; lia |]). exact T. }
  assert (M : i = u64 (expected w - 1) <-> a = i).
  { destruct A as [(-> & E & _) | (Ba & E & _)]; rewrite E.
    - change (u64 (0 - 1)) with NIL. lia.
    - rewrite u64_id by lia. lia. }
  destruct (Z.eqb_spec i (u64 (expected w - 1))) as [Ee|Ee].
  - split; [ split; auto |]. apply M in Ee. auto.
  - assert (Na : a <> i) by tauto. assert (F : forall e, match fetch src w i e with Throws => src i = None | Undefined => False | Answer w' p' a' => winv g p' a' w' /\ a' = i /\ size w' = size w /\ (a = i -> p' = p /\ w' = w) end).
    { intro e. destruct (fetch src w i e) as [| | w' p' a'] eqn:Ef.
      - unfold fetch in Ef. destruct (src i); congruence.
      - unfold fetch in Ef. destruct (src i); congruence.
      - destruct (fetch_ok g w e i w' p' a' B (Cf e) Ef) as (Q1 & Q2 & Q3). split; [ exact Q1 |]. split; [ exact Q2 |]. split; [ exact Q3 |]. intro. congruence. }
    destruct (cache w) as [|c r] eqn:Ec; [ apply F |]. destruct (Z.ltb_spec i (precache w)); [| apply F ]. destruct (Z.leb_spec (expected w) i); [| apply F ]. cbn [andb].
    rewrite u64_id by lia. destruct (pop_ok g (Z.to_nat (i - expected w + 1)) w p C) as (w' & p' & E' & C' & X & Sz & _ & Q). { rewrite Ec. lia. }
    rewrite E'. split; [| split; [ reflexivity | split; [ exact Sz | intro; congruence ] ] ]. split; auto. right. split; [ auto |]. split; [ lia |]. replace i with (expected w' - 1) by lia. apply Q. lia.
Qed.

Ltac fin := solve [ assumption | exact I | auto | split; solve [ auto | discriminate | congruence | intros; discriminate | intros; congruence ] | intros; discriminate | intros; congruence | intros; auto ].
Ltac sp := split; [ fin |].
(** ** the object *)
Variables cmin cmax : Z.
Hypothesis sizes : 0 <= cmin < NIL /\ cmax < NIL.
Definition older (s : st) (p : packet) : Prop := match p with Own _ => True | View g _ _ => g <= gen s end.
Definition alive (s : st) (p : packet) : Prop := match p with Own _ => True | View g _ _ => g = gen s /\ worker s <> None end.
Definition last_ok (s : st) : Prop :=
  match last_p s with
  | Own l => (last_idx s = NIL /\ l = []) \/ (0 <= last_idx s < NIL /\ src (last_idx s) = Some l)
  | View g o n => 0 <= last_idx s < NIL /\ (g = gen s -> worker s <> None -> match client s with Waiting _ _ => True | _ => last_p s = req_p s /\ last_idx s = answ s end)
  end.
Definition inv (s : st) : Prop :=
  older s (last_p s) /\ older s (req_p s) /\ (exc s = true -> worker s = None) /\
  (match client s with
   | Idle => got s = false /\ (active s = false -> worker s = None)
   | Waiting i na => got s = true /\ active s = true /\ req s = i /\ 0 <= i < NIL /\ (na = i -> answ s = i)
   | Joining _ => got s = false /\ active s = false
   end) /\
  (active s = true -> worker s = None -> exc s = true) /\
  (match worker s with Some (_, w) => winv (gen s) (req_p s) (answ s) w | None => True end) /\
  last_ok s.
Lemma inv_init : inv init.
Proof.
  unfold inv, last_ok, older. cbn. split; [ exact I |]. split; [ exact I |]. split; [ discriminate |]. split; [ auto |]. split; [ discriminate |]. split; [ exact I |]. left. auto.
Qed.
Definition obs_ok (o : obs) : Prop := match o with Returned i (Some l) => src i = Some l | Returned i None => True | Threw => True | Failed => False end.

Lemma last_ok_dead s s' : last_p s' = last_p s -> last_idx s' = last_idx s -> worker s' = None -> last_ok s -> last_ok s'.
Proof. unfold last_ok. intros -> -> W. destruct (last_p s); auto. intros (B & _). split; auto. rewrite W. congruence. Qed.
Lemma winit_ok g p B : held g p = [] -> 0 <= B < NIL -> winv g p NIL (winit B).
Proof.
  intros H S. split; [| left; auto ]. unfold core, winit. cbn [size cache buf expected precache first next tgt_idx tgt at_end length cached]. rewrite H. cbn [app]. split; [ left; auto |].
  unfold NIL in *. repeat (split; [ auto; lia |]). congruence.
Qed.
Lemma spawn_ok s n : inv s -> worker s = None -> (active s = false) -> got s = false -> client s <> Idle \/ client s = Idle -> (forall i na, client s <> Waiting i na) -> exc s = false -> inv (spawn cmin cmax s n).
Proof.
  intros (O1 & O2 & X & Cl & Ac & W & L) Wn An Gn _ Cn Ex. unfold spawn. destruct (Z.ltb_spec 0 n).
  - unfold inv, last_ok, older in *. cbn [active got req answ last_idx last_p req_p exc gen worker client].
    split; [ destruct (last_p s); auto; lia |]. split; [ destruct (req_p s); auto; lia |]. split; [ discriminate |]. split; [ split; [ reflexivity | discriminate ] |]. split; [ intros _ K; discriminate K |]. split.
    + apply winit_ok; [| lia ]. unfold held. destruct (req_p s) as [|g o m]; auto. destruct (Z.eqb_spec g (gen s + 1)); auto. lia.
    + destruct (last_p s) as [l|g o m]; [ exact L |]. destruct L as (B & L). split; auto. intros E _. lia.
  - unfold inv, last_ok, older, set_client in *. cbn [active got req answ last_idx last_p req_p exc gen worker client]. rewrite Wn in *. repeat sp.
    destruct (last_p s) as [l|g o m]; [ exact L |]. destruct L as (B & L). split; auto. intros _ K. congruence.
Qed.
Lemma loop_head_inv s w : inv (set_worker s (Some (false, w))) -> inv (loop_head s w).
Proof.
  unfold loop_head. destruct (active s) eqn:A; auto. intros (O1 & O2 & X & Cl & Ac & W & L). unfold set_worker in *. unfold inv in *. cbn [active got req answ last_idx last_p req_p exc gen worker client] in *.
  rewrite A in *. split; [ auto |]. split; [ auto |]. split; [ auto |]. split; [ destruct (client s); auto; tauto |]. split; [ discriminate |]. split; [ exact I |].
  eapply last_ok_dead; [ | | | exact L ]; reflexivity.
Qed.
Lemma set_worker_inv s b w w' : inv s -> worker s = Some (b, w) -> winv (gen s) (req_p s) (answ s) w' -> forall b', inv (set_worker s (Some (b', w'))).
Proof.
  intros (O1 & O2 & X & Cl & Ac & W & L) E Wi b'. unfold set_worker, inv, last_ok, older in *. cbn [active got req answ last_idx last_p req_p exc gen worker client] in *. rewrite E in *.
  split; [ auto |]. split; [ auto |]. split; [ intro K; specialize (X K); discriminate |]. split. { destruct (client s); auto. destruct Cl as (G & A0). split; auto. intro K. specialize (A0 K). discriminate. }
  split; [ discriminate |]. split; [ exact Wi |]. destruct (last_p s) as [l|g o m]; auto. destruct L as (B & L). split; auto. intros Eg _. apply L; auto. discriminate.
Qed.
Lemma die_inv s : inv s -> inv (die s).
Proof.
  intros (O1 & O2 & X & Cl & Ac & W & L). unfold die, inv in *. cbn [active got req answ last_idx last_p req_p exc gen worker client]. split; [ auto |]. split; [ auto |]. split; [ auto |].
  split. { destruct (client s); auto. tauto. } split; [ auto |]. split; [ exact I |]. eapply last_ok_dead; [ | | | exact L ]; reflexivity.
Qed.
Lemma at_src_content s b w i : worker s = Some (b, w) -> at_src (gen s) (req_p s) w i -> content s (req_p s) = src i.
Proof. intros E A. unfold at_src in A. unfold content. rewrite E. destruct (req_p s) as [l|g o n]; [ congruence |]. destruct A as (-> & A). rewrite Z.eqb_refl. congruence. Qed.
Lemma stop_call_ok s n : inv s -> client s = Idle -> inv (fst (stop_call cmin cmax s n)) /\ Forall obs_ok (snd (stop_call cmin cmax s n)).
Proof.
  intros I Ci. unfold stop_call. pose proof I as (O1 & O2 & X & Cl & Ac & W & L). rewrite Ci in Cl. destruct Cl as (G & A0). destruct (active s) eqn:A.
  - cbn [fst snd]. split; [| constructor ]. unfold inv, last_ok, older in *. cbn [active got req answ last_idx last_p req_p exc gen worker client]. rewrite Ci in L.
    repeat sp. exact L.
  - destruct (exc s) eqn:Ex; cbn [fst snd]. { split; auto. repeat constructor. }
    destruct n as [n|]; cbn [fst snd]; [| split; auto; constructor ]. split; [| constructor ]. apply spawn_ok; auto. intros i na. congruence.
Qed.
Lemma step_ok s a : inv s -> act_ok a -> inv (fst (step src cmin cmax s a)) /\ Forall obs_ok (snd (step src cmin cmax s a)).
Proof.
  intros I Ok. pose proof I as (O1 & O2 & X & Cl & Ac & W & L). unfold step.
  assert (Stay : inv (fst (s, @nil obs)) /\ Forall obs_ok (snd (s, @nil obs))) by (split; [ exact I | constructor ]).
  destruct a as [i| | |n| | | | | |].
  - (* Get *) destruct (client s) as [|i' na|n'] eqn:Ci; [| exact Stay | exact Stay ]. cbn [act_ok] in Ok. destruct Cl as (G & A0).
    destruct (Z.eqb_spec i (last_idx s)) as [Ei|Ei].
    { cbn [fst snd]. split; [ exact I |]. constructor; [| constructor ]. cbn [obs_ok]. destruct (content s (last_p s)) as [l|] eqn:Ec; auto. unfold last_ok in L. rewrite Ci in L.
      destruct (last_p s) as [l'|g o n] eqn:El; cbn [content] in Ec.
      - assert (l = l') as -> by congruence. subst i. destruct L as [(L1 & L2) | (L1 & L2)]; auto. lia.
      - destruct (worker s) as [[b w]|] eqn:Ew; [| discriminate ]. destruct (Z.eqb_spec g (gen s)) as [Eg|Eg]; [| discriminate ]. destruct L as (B & L). destruct (L Eg) as (L1 & L2); [ congruence |].
        destruct W as (C & [(A1 & A2 & A3) | (A1 & A2 & A3)]). { lia. } unfold at_src in A3. rewrite <- L1 in A3. destruct A3 as (_ & A3). rewrite Ei, L2, A3. exact Ec. }
    destruct (active s) eqn:A; cbn [negb].
    + rewrite G. cbn [fst snd]. split; [| constructor ]. unfold inv, last_ok, older in *. cbn [active got req answ last_idx last_p req_p exc gen worker client]. rewrite Ci in L.
      repeat sp. split. { split; [ auto |]. split; [ auto |]. split; [ reflexivity |]. split; [ lia |]. intro. lia. } repeat sp. destruct (last_p s); auto. destruct L. auto.
    + destruct (src i) as [l|] eqn:Ei'; cbn [fst snd].
      * split; [| repeat constructor; exact Ei' ]. unfold inv, last_ok, older in *. cbn [active got req answ last_idx last_p req_p exc gen worker client]. repeat sp. right. auto.
      * split; [ exact I |]. repeat constructor.
  - (* Timeout *) destruct (client s) as [|i na|n'] eqn:Ci; try exact Stay. cbn [fst snd]. split; [| constructor ]. unfold inv, last_ok, older, set_client in *. cbn [active got req answ last_idx last_p req_p exc gen worker client]. rewrite Ci in L.
    destruct Cl as (C1 & C2 & C3 & C4 & C5). repeat sp. exact L.
  - (* Finish *) destruct (client s) as [|i na|n'] eqn:Ci; try exact Stay. destruct Cl as (C1 & C2 & C3 & C4 & C5). rewrite C2 in *. cbn [negb andb].
    destruct (exc s) eqn:Ex; cbn [negb andb].
    + rewrite (X eq_refl) in *. cbn [fst snd]. split; [| repeat constructor ]. unfold inv in *. cbn [active got req answ last_idx last_p req_p exc gen worker client]. unfold older in *. cbn [gen]. repeat sp.
      eapply last_ok_dead; [ | | | exact L ]; try reflexivity.
    + destruct (Z.eqb_spec na (req s)) as [Er|Er]; cbn [negb]; [| exact Stay ]. cbn [fst snd]. rewrite C3 in Er. specialize (C5 Er).
      destruct (worker s) as [[b w]|] eqn:Ew; [| now specialize (Ac eq_refl eq_refl) ].
      destruct W as (C & [(A1 & A2 & A3) | (A1 & A2 & A3)]); [ lia |]. rewrite C5 in *. split.
      * unfold inv, last_ok, older in *. cbn [active got req answ last_idx last_p req_p exc gen worker client]. repeat sp.
        destruct (req_p s) as [l|g o m] eqn:Erp; cbn [at_src] in A3. { right. split; [ lia |]. rewrite Er. exact A3. } split; [ lia |]. auto.
      * constructor; [| constructor ]. cbn [obs_ok]. rewrite (at_src_content s b w i Ew A3). now destruct (src i).
  - (* Start *) destruct (client s) as [|i' na|n'] eqn:Ci; try exact Stay. now apply stop_call_ok.
  - destruct (client s) as [|i' na|n'] eqn:Ci; try exact Stay. now apply stop_call_ok.
  - (* Joined *) destruct (client s) as [|i' na|n'] eqn:Ci; try exact Stay. destruct (worker s) as [x|] eqn:Ew; [ exact Stay |]. destruct Cl as (G & A0). unfold after_join. rewrite G.
    assert (Ii : inv (set_client s Idle)). { unfold inv, last_ok, older, set_client in *. cbn [active got req answ last_idx last_p req_p exc gen worker client]. rewrite Ew in *. repeat sp. destruct (last_p s); auto. destruct L. split; auto. intros _ K. congruence. }
    destruct (exc s) eqn:Ex; cbn [fst snd]. { split; [ exact Ii | repeat constructor ]. }
    destruct n' as [n'|]; cbn [fst snd]; (split; [| constructor ]); auto. apply spawn_ok; auto. left. congruence. intros. congruence.
  - (* WFilled *) destruct (worker s) as [[[] w]|] eqn:Ew; try (destruct (client s); exact Stay). assert (inv (loop_head s w)) by (apply loop_head_inv; eapply set_worker_inv; eauto). destruct (client s); (split; [ assumption | constructor ]).
  - (* WCache *) destruct (worker s) as [[[] w]|] eqn:Ew; [ | | destruct (client s); exact Stay ].
    + assert (inv (fst (match cache_one src w with None => (die s, @nil obs) | Some (w, n) => (if n =? 0 then loop_head s w else set_worker s (Some (true, w)), []) end)) /\ Forall obs_ok (snd (match cache_one src w with None => (die s, []) | Some (w, n) => (if n =? 0 then loop_head s w else set_worker s (Some (true, w)), []) end))).
      { destruct (cache_one src w) as [[w' n]|] eqn:Ec; [| split; [ now apply die_inv | constructor ] ]. destruct (cache_one_ok _ _ _ _ _ _ W Ec) as (Wi & _).
        destruct (n =? 0); (split; [| constructor ]); cbn [fst]; [ apply loop_head_inv |]; eapply set_worker_inv; eauto. }
      destruct (client s); assumption.
    + assert (inv (fst (if got s || at_end w then (s, @nil obs) else match cache_one src w with None => (die s, []) | Some (w, _) => (loop_head s w, []) end)) /\ Forall obs_ok (snd (if got s || at_end w then (s, @nil obs) else match cache_one src w with None => (die s, []) | Some (w, _) => (loop_head s w, []) end))).
      { destruct (got s || at_end w); [ exact Stay |]. destruct (cache_one src w) as [[w' n]|] eqn:Ec; [| split; [ now apply die_inv | constructor ] ]. destruct (cache_one_ok _ _ _ _ _ _ W Ec) as (Wi & _). split; [| constructor ]. cbn [fst]. apply loop_head_inv. eapply set_worker_inv; eauto. }
      destruct (client s); assumption.
  - (* WIdle *) destruct (worker s) as [[[] w]|] eqn:Ew; try (destruct (client s); exact Stay). destruct (got s) eqn:G; [ destruct (client s); exact Stay |].
    assert (inv (loop_head s w)) by (apply loop_head_inv; eapply set_worker_inv; eauto). destruct (client s); (split; [ assumption | constructor ]).
  - (* WAnswer *) destruct (worker s) as [[[] w]|] eqn:Ew; try (destruct (client s); exact Stay). destruct (got s) eqn:G; [| destruct (client s); exact Stay ].
    destruct (client s) as [|i na|n'] eqn:Ci; [ now destruct Cl | | now destruct Cl ]. destruct Cl as (C1 & C2 & C3 & C4 & C5). rewrite C3.
    pose proof (reply_ok (gen s) w i (req_p s) (answ s) W C4) as Rp. destruct (reply src (gen s) w i (req_p s) (answ s)) as [| |w' p' a'].
    + split; [ now apply die_inv | constructor ].
    + destruct Rp.
    + cbn [fst snd]. destruct Rp as (Wi & Ea & _ & Same). split; [| constructor ]. apply loop_head_inv. unfold set_worker, inv, last_ok, older in *. cbn [active got req answ last_idx last_p req_p exc gen worker client]. rewrite Ew in *. rewrite ?Ci in *.
      split; [ auto |]. split. { destruct Wi as (_ & [(H & _ & _) | (_ & _ & H)]); [ lia |]. destruct p'; auto. cbn [at_src] in H. destruct H. lia. }
      split; [ intro K; specialize (X K); discriminate |]. split. { split; [ auto |]. split; [ auto |]. split; [ auto |]. split; [ auto |]. auto. } split; [ discriminate |]. split; [ exact Wi |].
      destruct (last_p s); auto. destruct L. split; auto.
Qed.
Lemma run_ok : forall l s, inv s -> Forall act_ok l -> inv (fst (run src cmin cmax s l)) /\ Forall obs_ok (snd (run src cmin cmax s l)).
Proof.
  induction l as [|a l IH]; intros s I Ok; cbn [run]. { split; [ exact I | constructor ]. }
  inversion Ok as [|x y Oa Ol]; subst. destruct (step_ok s a I Oa) as (I1 & F1). destruct (step src cmin cmax s a) as [s1 o1]. cbn [fst snd] in *. destruct (IH s1 I1 Ol) as (I2 & F2). destruct (run src cmin cmax s1 l) as [s2 o2]. cbn [fst snd] in *.
  split; [ exact I2 |]. apply Forall_app. auto.
Qed.
End Inv.

(** ** consequences *)
Section Use.
Variable src : Z -> option (list Z).
Hypothesis end_nil : forall p, src NIL = Some p -> p = [].
Variables cmin cmax : Z.
Hypothesis sizes : 0 <= cmin < NIL /\ cmax < NIL.
Notation stp := (step src cmin cmax).
Notation rn := (run src cmin cmax).
Lemma run_app l1 : forall l2 s, rn s (l1 ++ l2) = (fst (rn (fst (rn s l1)) l2), snd (rn s l1) ++ snd (rn (fst (rn s l1)) l2)).
Proof.
  induction l1 as [|a l1 IH]; intros l2 s; cbn [app run fst snd]. { now rewrite <- surjective_pairing. }
  destruct (stp s a) as [s1 o1]. rewrite IH. destruct (rn s1 l1) as [s2 o2]. cbn [fst snd]. destruct (rn s2 l2) as [s3 o3]. cbn [fst snd]. now rewrite app_assoc.
Qed.
Theorem returned_ok l i p : Forall act_ok l -> In (Returned i (Some p)) (snd (rn init l)) -> src i = Some p.
Proof.
  intros Ok I. destruct (run_ok src end_nil cmin cmax sizes l init (inv_init src) Ok) as (_ & F). rewrite Forall_forall in F. exact (F _ I).
Qed.
Theorem never_failed l : Forall act_ok l -> ~ In Failed (snd (rn init l)).
Proof.
  intros Ok I. destruct (run_ok src end_nil cmin cmax sizes l init (inv_init src) Ok) as (_ & F). rewrite Forall_forall in F. exact (F _ I).
Qed.
Lemma reachable_inv l : Forall act_ok l -> inv src (fst (rn init l)).
Proof. intro Ok. now destruct (run_ok src end_nil cmin cmax sizes l init (inv_init src) Ok). Qed.
Theorem held_ok l p : Forall act_ok l -> let s := fst (rn init l) in (forall i na, client s <> Waiting i na) -> last_idx s <> NIL -> content s (last_p s) = Some p -> src (last_idx s) = Some p.
Proof.
  intros Ok s Nw Nn E. destruct (run_ok src end_nil cmin cmax sizes l init (inv_init src) Ok) as ((O1 & O2 & X & Cl & Ac & W & L) & _). fold s in O1, O2, X, Cl, Ac, W, L. unfold last_ok in L.
  destruct (last_p s) as [q|g o n] eqn:El; cbn [content] in E.
  - destruct L as [(L1 & L2) | (L1 & L2)]; [ congruence |]. congruence.
  - destruct (worker s) as [[b w]|] eqn:Ew; [| discriminate ]. destruct (Z.eqb_spec g (gen s)) as [Eg|Eg]; [| discriminate ]. destruct L as (B & L). specialize (L Eg ltac:(congruence)).
    assert (K : View g o n = req_p s /\ last_idx s = answ s). { destruct (client s) as [|i na|k] eqn:Ec; auto. now elim (Nw i na). } destruct K as (K1 & K2).
    destruct W as (C & [(A1 & A2 & A3) | (A1 & A2 & A3)]); [ lia |]. unfold at_src in A3. rewrite <- K1 in A3. destruct A3 as (_ & A3). rewrite K2, A3. exact E.
Qed.
(** *** no dangling without stop and exceptions *)
Definition calm (s : st) : Prop := inv src s /\ exc s = false /\ alive s (last_p s) /\ (forall n, client s <> Joining n).
Definition fine (o : obs) : Prop := match o with Returned _ (Some _) => True | _ => False end.
Lemma alive_content s p : alive s p -> content s p <> None.
Proof. destruct p as [l|g o n]; cbn; [ discriminate |]. intros (-> & W). destruct (worker s) as [[b w]|]; [| congruence ]. rewrite Z.eqb_refl. discriminate. Qed.
Lemma content_fine s p i : alive s p -> fine (Returned i (content s p)).
Proof. intro A. apply alive_content in A. cbn. destruct (content s p); auto. Qed.
Lemma loop_head_alive s b w w' p : worker s = Some (b, w) -> inv src s -> (forall n, client s <> Joining n) -> alive s p -> alive (loop_head s w') p.
Proof.
  intros E (_ & _ & _ & Cl & _) J A. unfold loop_head. assert (Ac : active s = true). { destruct (client s) as [|i na|n] eqn:Ci; [| tauto | now elim (J n) ]. destruct Cl as (_ & Cl). destruct (active s); auto. rewrite (Cl eq_refl) in E. discriminate. }
  rewrite Ac. destruct p as [l|g o n]; cbn in *; auto. split; [ tauto | discriminate ].
Qed.
Lemma cache_one_total w : (forall i, src i <> None) -> cache_one src w <> None.
Proof.
  intro T. unfold cache_one, cache_next. assert (K : (if precache w =? tgt_idx w then Some (tgt w) else src (precache w)) <> None) by (destruct (precache w =? tgt_idx w); [ discriminate | apply T ]).
  destruct (if precache w =? tgt_idx w then Some (tgt w) else src (precache w)) as [q|]; [| congruence ]. destruct (Z.of_nat (length q) =? 0); [ discriminate |]. destruct (place _ _) as [[[off f] x]|]; discriminate.
Qed.
Lemma calm_step s a : (forall i, src i <> None) -> calm s -> act_ok a -> quiet a -> calm (fst (stp s a)) /\ Forall fine (snd (stp s a)).
Proof.
  intros T (I & Ex & Al & J) Ok Q. destruct (step_ok src end_nil cmin cmax sizes s a I Ok) as (I' & _).
  enough (H : (exc (fst (stp s a)) = false /\ alive (fst (stp s a)) (last_p (fst (stp s a))) /\ (forall n, client (fst (stp s a)) <> Joining n)) /\ Forall fine (snd (stp s a))).
  { destruct H as ((H1 & H2 & H3) & H4). split; [ exact (conj I' (conj H1 (conj H2 H3))) | exact H4 ]. } clear I'.
  pose proof I as (O1 & O2 & X & Cl & Ac & W & L).
  assert (Stay : (exc (fst (s, @nil obs)) = false /\ alive (fst (s, @nil obs)) (last_p (fst (s, @nil obs))) /\ (forall n, client (fst (s, @nil obs)) <> Joining n)) /\ Forall fine (snd (s, @nil obs))) by (cbn [fst snd]; split; [ auto | constructor ]).
  unfold step. destruct a as [i| | |n| | | | | |]; try (destruct Q).
  - destruct (client s) as [|i' na|n'] eqn:Ci; try exact Stay. destruct (i =? last_idx s). { cbn [fst snd]. rewrite Ci. split; [ auto |]. constructor; [| constructor ]. now apply content_fine. }
    destruct (active s) eqn:A; cbn [negb]. { destruct Cl as (-> & _). cbn [fst snd exc last_p client]. split; [| constructor ]. split; [ auto |]. split; [| discriminate ]. destruct (last_p s); cbn in *; auto. }
    destruct (src i) as [l|] eqn:Ei; [| now elim (T i) ]. cbn [fst snd exc last_p client]. split; [| repeat constructor ]. split; [ auto |]. split; [ exact Logic.I | discriminate ].
  - destruct (client s) as [|i' na|n'] eqn:Ci; try exact Stay. unfold set_client. cbn [fst snd exc last_p client]. split; [| constructor ]. split; [ auto |]. split; [| discriminate ]. destruct (last_p s); cbn in *; auto.
  - destruct (client s) as [|i na|n'] eqn:Ci; try exact Stay. destruct Cl as (C1 & C2 & C3 & C4 & C5). rewrite C2, Ex. cbn [negb andb]. destruct (Z.eqb_spec na (req s)) as [Er|Er]; cbn [negb]; [| cbn [fst snd] in *; rewrite ?Ci in *; exact Stay ].
    destruct (worker s) as [[b w]|] eqn:Ew; [| specialize (Ac C2 eq_refl); congruence ]. destruct W as (C & [(A1 & A2 & A3) | (A1 & A2 & A3)]). { specialize (C5 ltac:(lia)). lia. }
    assert (Ar : alive s (req_p s)). { unfold at_src in A3. unfold alive. destruct (req_p s) as [l|g o m]; auto. destruct A3 as (-> & _). split; auto. rewrite Ew. discriminate. }
    cbn [fst snd exc last_p client]. split. { split; [ auto |]. split; [| discriminate ]. unfold alive in *. cbn [gen worker]. rewrite Ew in Ar. exact Ar. } constructor; [| constructor ]. now apply content_fine.
  - destruct (client s) as [|i na|n'] eqn:Ci; try exact Stay. now elim (J n').
  - destruct (worker s) as [[[] w]|] eqn:Ew; try (destruct (client s); exact Stay).
    assert (H : alive (loop_head s w) (last_p (loop_head s w))) by (eapply loop_head_alive; eauto). destruct (client s) as [|i na|n'] eqn:Ci; (split; [ split; [ exact Ex | split; [ exact H |] ] | constructor ]); unfold loop_head, set_worker; cbn [client fst]; rewrite Ci; auto.
  - destruct (worker s) as [[[] w]|] eqn:Ew; [ | | destruct (client s); exact Stay ].
    + pose proof (cache_one_total w T) as Tc. destruct (cache_one src w) as [[w' n]|] eqn:Ec; [| congruence ].
      assert (H : forall s', s' = loop_head s w' \/ s' = set_worker s (Some (true, w')) -> (exc s' = false /\ alive s' (last_p s') /\ (forall n0, client s' <> Joining n0)) /\ Forall fine []).
      { intros s' [-> | ->]; (split; [| constructor ]). - split; [ exact Ex |]. split; [ eapply loop_head_alive; eauto | exact J ]. - split; [ exact Ex |]. split; [| exact J ]. destruct (last_p s) as [|g o m] eqn:Elp; unfold set_worker; cbn [last_p]; rewrite Elp; cbn in *; auto. destruct Al. split; auto. discriminate. }
      specialize (H (if n =? 0 then loop_head s w' else set_worker s (Some (true, w'))) ltac:(destruct (n =? 0); auto)). destruct (client s); exact H.
    + destruct (got s || at_end w); [ destruct (client s); exact Stay |]. pose proof (cache_one_total w T) as Tc. destruct (cache_one src w) as [[w' n]|] eqn:Ec; [| congruence ].
      assert (H : (exc (loop_head s w') = false /\ alive (loop_head s w') (last_p (loop_head s w')) /\ (forall n0, client (loop_head s w') <> Joining n0)) /\ Forall fine []).
      { split; [| constructor ]. split; [ exact Ex |]. split; [ eapply loop_head_alive; eauto | exact J ]. } destruct (client s); exact H.
  - destruct (worker s) as [[[] w]|] eqn:Ew; try (destruct (client s); exact Stay). destruct (got s); [ destruct (client s); exact Stay |].
    assert (H : (exc (loop_head s w) = false /\ alive (loop_head s w) (last_p (loop_head s w)) /\ (forall n0, client (loop_head s w) <> Joining n0)) /\ Forall fine []).
    { split; [| constructor ]. split; [ exact Ex |]. split; [ eapply loop_head_alive; eauto | exact J ]. } destruct (client s); exact H.
  - destruct (worker s) as [[[] w]|] eqn:Ew; try (destruct (client s); exact Stay). destruct (got s) eqn:G; [| destruct (client s); exact Stay ].
    destruct (client s) as [|i na|n'] eqn:Ci; [ now destruct Cl | | now elim (J n') ]. destruct Cl as (C1 & C2 & C3 & C4 & C5). rewrite C3.
    pose proof (reply_ok src (gen s) w i (req_p s) (answ s) W C4) as Rp. destruct (reply src (gen s) w i (req_p s) (answ s)) as [| |w' p' a']; [ now elim (T i) | destruct Rp |].
    cbn [fst snd]. unfold loop_head, set_worker. cbn [active got req answ last_idx last_p req_p exc gen worker client]. rewrite C2. split; [| constructor ]. split; [ auto |]. split; [| congruence ]. destruct (last_p s); cbn in *; auto. destruct Al. split; auto. discriminate.
Qed.
Lemma calm_run : (forall i, src i <> None) -> forall l s, calm s -> Forall act_ok l -> Forall quiet l -> calm (fst (rn s l)) /\ Forall fine (snd (rn s l)).
Proof.
  intros T. induction l as [|a l IH]; intros s C Ok Q; cbn [run]. { split; [ exact C | constructor ]. }
  inversion Ok as [|x y Oa Ol]; inversion Q as [|x' y' Qa Ql]; subst. destruct (calm_step s a T C Oa Qa) as (C1 & F1). destruct (stp s a) as [s1 o1]. cbn [fst snd] in *. destruct (IH s1 C1 Ol Ql) as (C2 & F2). destruct (rn s1 l) as [s2 o2]. cbn [fst snd] in *. split; auto. apply Forall_app. auto.
Qed.
Lemma calm_init : calm init.
Proof. split; [ apply inv_init |]. split; [ reflexivity |]. split; [ exact I | discriminate ]. Qed.
Lemma calm_start n : 0 < n -> calm (fst (rn init [Start n])) /\ snd (rn init [Start n]) = [].
Proof.
  intro P. destruct (run_ok src end_nil cmin cmax sizes [Start n] init (inv_init src) ltac:(repeat constructor)) as (Iv & _). revert Iv. cbn [run step client init stop_call active exc fst snd app]. unfold spawn. rewrite (proj2 (Z.ltb_lt 0 n) P). cbn [fst snd]. intro Iv. split; [| reflexivity ].
  split; [ exact Iv |]. split; [ reflexivity |]. split; [ exact I | discriminate ].
Qed.
Theorem always_served n l : (forall i, src i <> None) -> 0 < n -> Forall act_ok l -> Forall quiet l ->
  Forall (fun o => exists i p, o = Returned i (Some p) /\ src i = Some p) (snd (rn init (Start n :: l))) /\ content (fst (rn init (Start n :: l))) (last_p (fst (rn init (Start n :: l)))) <> None.
Proof.
  intros T P Ok Q. change (Start n :: l) with ([Start n] ++ l). destruct (calm_start n P) as (C & O). rewrite run_app, O. cbn [fst snd app]. destruct (calm_run T l _ C Ok Q) as (C2 & F2). split.
  - destruct C as (Iv & _). destruct (run_ok src end_nil cmin cmax sizes l _ Iv Ok) as (_ & F). rewrite Forall_forall in *. intros o I. specialize (F2 o I). specialize (F o I). destruct o as [i [p|]| |]; try destruct F2. exists i, p. split; auto.
  - apply alive_content. destruct C2 as (_ & _ & A & _). exact A.
Qed.
(** *** a request is answered *)
Theorem answered s i na p : inv src s -> client s = Waiting i na -> worker s <> None -> src i = Some p ->
  snd (rn s [WFilled; WAnswer; Timeout; Finish]) = [Returned i (Some p)] /\ client (fst (rn s [WFilled; WAnswer; Timeout; Finish])) = Idle.
Proof.
  intros (O1 & O2 & X & Cl & Ac & W & L) Ci Wn Ep. rewrite Ci in Cl. destruct Cl as (C1 & C2 & C3 & C4 & C5). destruct (worker s) as [[b w]|] eqn:Ew; [| congruence ]. clear Wn.
  assert (Xf : exc s = false) by (destruct (exc s); auto; discriminate (X eq_refl)).
  pose proof (reply_ok src (gen s) w i (req_p s) (answ s) W C4) as Rp.
  set (s1 := set_worker s (Some (false, w))). assert (E1 : stp s WFilled = (s1, [])).
  { unfold step. rewrite ?Ci, Ew. destruct b; [ unfold loop_head; rewrite C2; reflexivity |]. unfold s1, set_worker. rewrite <- Ew. now destruct s. }
  destruct (reply src (gen s) w i (req_p s) (answ s)) as [| |w' p' a'] eqn:Er; [ congruence | destruct Rp |]. destruct Rp as (Wi & -> & _ & _).
  set (s2 := St true true i i (last_idx s) (last_p s) p' (exc s) (gen s) (Some (false, w')) (Waiting i na)).
  assert (E2 : stp s1 WAnswer = (s2, [])). { unfold step, s1, set_worker. cbn [client worker got req answ req_p gen]. rewrite ?Ci, C1, C3, Er. unfold loop_head, set_worker. cbn [active got req answ last_idx last_p req_p exc gen worker client]. rewrite ?C2, ?C1, ?C3, ?Ci. reflexivity. }
  set (s3 := set_client s2 (Waiting i i)). assert (E3 : stp s2 Timeout = (s3, [])) by reflexivity.
  assert (E4 : stp s3 Finish = (St true false NIL i i p' p' (exc s) (gen s) (Some (false, w')) Idle, [Returned i (content s3 p')])).
  { unfold step, s3, s2, set_client. cbn [client active exc req]. rewrite Xf, Z.eqb_refl. cbn [negb andb active answ req_p gen worker exc]. rewrite ?Xf. reflexivity. }
  cbn [run]. rewrite E1, E2, E3, E4. cbn [fst snd app client]. split; [| reflexivity ]. f_equal. f_equal. rewrite <- Ep.
  destruct Wi as (_ & [(A1 & _) | (_ & _ & A3)]); [ lia |]. apply (at_src_content src s3 false w' i); auto.
Qed.
Theorem exception_reported s i na : inv src s -> client s = Waiting i na -> worker s = None -> snd (stp s Finish) = [Threw].
Proof.
  intros (O1 & O2 & X & Cl & Ac & W & L) Ci Wn. rewrite Ci in Cl. destruct Cl as (C1 & C2 & _). unfold step. rewrite Ci, C2, (Ac C2 Wn). reflexivity.
Qed.
Theorem join_ends s n : inv src s -> client s = Joining n -> exists k, client (fst (rn s [WFilled; WIdle; Joined])) = k /\ k = Idle.
Proof.
  intros (O1 & O2 & X & Cl & Ac & W & L) Ci. rewrite Ci in Cl. destruct Cl as (G & A). eexists. split; [ reflexivity |].
  assert (Jn : forall s', worker s' = None -> client s' = Joining n -> got s' = false -> client (fst (stp s' Joined)) = Idle).
  { intros s' W' C' G'. unfold step. rewrite C', W'. unfold after_join. rewrite G'. destruct (exc s'); [ reflexivity |]. destruct n as [n|]; [| reflexivity ]. cbn [fst]. unfold spawn. destruct (0 <? n); reflexivity. }
  set (s0 := set_worker s None).
  assert (R : fst (rn s [WFilled; WIdle]) = s0).
  { destruct (worker s) as [[b w]|] eqn:Ew; [ destruct b |].
    - assert (E1 : stp s WFilled = (s0, [])) by (unfold step; rewrite ?Ci, Ew; unfold loop_head; rewrite A; reflexivity).
      assert (E2 : stp s0 WIdle = (s0, [])) by (unfold step, s0, set_worker; cbn [client worker]; rewrite ?Ci; reflexivity).
      cbn [run]. rewrite E1, E2. reflexivity.
    - assert (E1 : stp s WFilled = (s, [])) by (unfold step; rewrite ?Ci, Ew; reflexivity).
      assert (E2 : stp s WIdle = (s0, [])) by (unfold step; rewrite ?Ci, Ew, G; unfold loop_head; rewrite A; reflexivity).
      cbn [run]. rewrite E1, E2. reflexivity.
    - assert (E1 : stp s WFilled = (s, [])) by (unfold step; rewrite ?Ci, Ew; reflexivity).
      assert (E2 : stp s WIdle = (s, [])) by (unfold step; rewrite ?Ci, Ew; reflexivity).
      cbn [run]. rewrite E1, E2. cbn [fst]. unfold s0, set_worker. rewrite <- Ew. now destruct s. }
  change [WFilled; WIdle; Joined] with ([WFilled; WIdle] ++ [Joined]). rewrite run_app. cbn [fst]. rewrite R. cbn [run]. pose proof (Jn s0 eq_refl Ci G) as K. destruct (stp s0 Joined). exact K.
Qed.
(** *** once the end was seen with nothing cached, nothing is cached any more *)
Lemma spent_step s a : spent s -> (forall n, client s <> Joining (Some n)) -> no_start a -> spent (fst (stp s a)) /\ (forall n, client (fst (stp s a)) <> Joining (Some n)).
Proof.
  intros S J N. assert (Stay : spent s /\ (forall n, client s <> Joining (Some n))) by auto.
  assert (Lh : forall s' w, (forall n, client s' <> Joining (Some n)) -> cache w = [] -> at_end w = true -> spent (loop_head s' w) /\ (forall n, client (loop_head s' w) <> Joining (Some n))).
  { intros s' w J' C E. unfold loop_head, spent, set_worker. cbn [worker client]. split; auto. destruct (active s'); auto. }
  unfold step. destruct a as [i| | |n| | | | | |]; [ | | | destruct N | | | | | | ].
  - destruct (client s) as [|i' na|n'] eqn:Ci; try (cbn [fst]; rewrite Ci; exact Stay). destruct (i =? last_idx s); [ cbn [fst]; rewrite Ci; exact Stay |]. destruct (negb (active s)). { destruct (src i); cbn [fst]; [| rewrite Ci; exact Stay ]. unfold spent in *. cbn [worker client]. split; [ exact S | discriminate ]. }
    destruct (got s); cbn [fst]; [ rewrite Ci; exact Stay |]. unfold spent in *. cbn [worker client]. split; [ exact S | discriminate ].
  - destruct (client s) as [|i' na|n'] eqn:Ci; try (cbn [fst]; rewrite Ci; exact Stay). unfold spent, set_client in *. cbn [fst worker client]. split; [ exact S | discriminate ].
  - destruct (client s) as [|i' na|n'] eqn:Ci; try (cbn [fst]; rewrite Ci; exact Stay). destruct (_ && _ && _); [ cbn [fst]; rewrite Ci; exact Stay |]. destruct (negb (active s)); [| destruct (exc s) ]; unfold spent in *; cbn [fst worker client]; (split; [ exact S | discriminate ]).
  - destruct (client s) as [|i' na|n'] eqn:Ci; try (cbn [fst]; rewrite Ci; exact Stay). unfold stop_call. destruct (active s); [ unfold spent in *; cbn [fst worker client]; split; [ exact S | discriminate ] |]. destruct (exc s); cbn [fst]; rewrite Ci; exact Stay.
  - destruct (client s) as [|i' na|n'] eqn:Ci; try (cbn [fst]; rewrite Ci; exact Stay). destruct (worker s) as [x|] eqn:Ew; [ cbn [fst]; rewrite Ci; exact Stay |]. destruct n' as [n'|]; [ now elim (J n') |]. unfold after_join, spent, set_client.
    destruct (got s); [| destruct (exc s) ]; cbn [fst worker client]; rewrite Ew; (split; [ exact I | discriminate ]).
  - destruct (worker s) as [[[] w]|] eqn:Ew; unfold spent in S; rewrite Ew in S; [ destruct S; discriminate | |]; destruct (client s) eqn:Ci; cbn [fst]; rewrite Ci; exact Stay.
  - destruct (worker s) as [[[] w]|] eqn:Ew; unfold spent in S; rewrite Ew in S; [ destruct S; discriminate | |]; [ destruct S as (_ & _ & ->); rewrite orb_true_r |]; destruct (client s) eqn:Ci; cbn [fst]; rewrite Ci; exact Stay.
  - destruct (worker s) as [[[] w]|] eqn:Ew; pose proof S as S'; unfold spent in S'; rewrite Ew in S'; [ destruct S'; discriminate | |]; [| destruct (client s) eqn:Ci; cbn [fst]; rewrite Ci; exact Stay ].
    destruct S' as (_ & S1 & S2). destruct (got s). { destruct (client s) eqn:Ci; cbn [fst]; rewrite Ci; exact Stay. } pose proof (Lh s w J S1 S2) as Q. destruct (client s); exact Q.
  - destruct (worker s) as [[[] w]|] eqn:Ew; pose proof S as S'; unfold spent in S'; rewrite Ew in S'; [ destruct S'; discriminate | |]; [| destruct (client s) eqn:Ci; cbn [fst]; rewrite Ci; exact Stay ].
    destruct S' as (_ & S1 & S2). destruct (got s). 2: { destruct (client s) eqn:Ci; cbn [fst]; rewrite Ci; exact Stay. }
    unfold reply. destruct (req s =? u64 (expected w - 1)).
    { match goal with |- context [loop_head ?s' w] => pose proof (Lh s' w J S1 S2) as Q end. destruct (client s); exact Q. }
    rewrite S1. unfold fetch. destruct (src (req s)) as [l|].
    + match goal with |- context [loop_head ?s' ?w'] => pose proof (Lh s' w' J eq_refl S2) as Q end. destruct (client s); exact Q.
    + assert (Q : spent (die s) /\ (forall n, client (die s) <> Joining (Some n))) by (split; [ exact I | exact J ]). destruct (client s); exact Q.
Qed.
Theorem spent_forever : forall l s, spent s -> (forall n, client s <> Joining (Some n)) -> Forall no_start l -> spent (fst (rn s l)).
Proof.
  induction l as [|a l IH]; intros s S J N; cbn [run]; auto. inversion N as [|x y Na Nl]; subst. destruct (spent_step s a S J Na) as (S1 & J1). destruct (stp s a) as [s1 o1]. cbn [fst] in *. specialize (IH s1 S1 J1 Nl). destruct (rn s1 l). exact IH.
Qed.
(** *** a worker exception is for ever *)
Lemma broken_step s a : exc s = true -> worker s = None -> exc (fst (stp s a)) = true /\ worker (fst (stp s a)) = None.
Proof.
  intros E W. unfold step. rewrite W. destruct a as [i| | |n| | | | | |]; try (destruct (client s); auto; fail).
  - destruct (client s); auto. destruct (i =? last_idx s); auto. destruct (negb (active s)); [ destruct (src i); auto |]. destruct (got s); auto.
  - destruct (client s); auto. destruct (_ && _ && _); auto. destruct (negb (active s)); auto. rewrite E. auto.
  - destruct (client s); auto. unfold stop_call. destruct (active s); auto. rewrite E. auto.
  - destruct (client s); auto. unfold stop_call. destruct (active s); auto. rewrite E. auto.
  - destruct (client s); auto. unfold after_join. destruct (got s); auto. rewrite E. auto.
Qed.
Theorem broken_forever : forall l s, exc s = true -> worker s = None -> exc (fst (rn s l)) = true /\ worker (fst (rn s l)) = None.
Proof.
  induction l as [|a l IH]; intros s E W; cbn [run]; auto. destruct (broken_step s a E W) as (E1 & W1). destruct (stp s a) as [s1 o1]. cbn [fst] in *. specialize (IH s1 E1 W1). destruct (rn s1 l). exact IH.
Qed.
Theorem broken_start s n : exc s = true -> worker s = None -> client s = Idle -> got s = false ->
  snd (rn s [Start n; Joined]) = [Threw] /\ snd (rn s [Stop; Joined]) = [Threw].
Proof.
  intros E W C G.
  assert (K : forall a n, (a = Start n \/ (a = Stop)) -> snd (rn s [a; Joined]) = [Threw]).
  { intros a m Ha. assert (Ec : exists o, stp s a = stop_call cmin cmax s o) by (destruct Ha as [-> | ->]; unfold step; rewrite C; eauto). destruct Ec as (o & Ec). cbn [run]. rewrite Ec. unfold stop_call. destruct (active s).
    - unfold step. cbn [client worker]. rewrite W. unfold after_join. cbn [got exc]. rewrite G, E. reflexivity.
    - rewrite E. unfold step. rewrite C. reflexivity. }
  split; eapply K; eauto. Unshelve. exact 0.
Qed.
End Use.
