From Coq Require Import ZArith List Bool Lia.
From Verif Require Import Model.GtIndex Spec.GtIndex.
Import ListNotations.
Open Scope Z_scope.

Lemma starts_iff : forall d s, starts d s = true <-> occurs d s 0.
Proof.
  induction d as [|a d IH]; intros s; cbn [starts]; [split; [intros _; split; [cbn [length]; lia|cbn [length]; intros; lia]|reflexivity]|]. destruct s as [|b s]; [split; [discriminate|intros [H _]; cbn [length] in H; lia]|].
  rewrite andb_true_iff, Z.eqb_eq, IH. split.
  - intros [-> [L E]]. split; [cbn [length] in *; lia|]. intros [|i] Hi; [reflexivity|]. cbn [Nat.add nth] in *. apply E. cbn [length] in Hi. lia.
  - intros [L E]. cbn [length] in *. split; [symmetry; exact (E 0%nat ltac:(lia))|]. split; [lia|]. intros i Hi. exact (E (S i) ltac:(lia)).
Qed.
Lemma occurs_cons d c s p : occurs d (c :: s) (S p) <-> occurs d s p.
Proof. unfold occurs. cbn [length Nat.add nth]. split; intros [A B]; (split; [lia|exact B]). Qed.
Lemma find_spec d : forall s, match find d s with Some p => exists q, p = Z.of_nat q /\ occurs d s q /\ forall r, (r < q)%nat -> ~ occurs d s r | None => forall q, ~ occurs d s q end.
Proof.
  induction s as [|c s IH].
  - cbn [find]. destruct (starts d []) eqn:E; [exists 0%nat; split; [reflexivity|]; split; [apply starts_iff; exact E|intros; lia]|]. intros q [L N]. cbn [length] in L. assert (q = 0%nat) by lia. subst q. assert (X : occurs d [] 0) by (split; assumption). apply starts_iff in X. congruence.
  - cbn [find]. destruct (starts d (c :: s)) eqn:E; [exists 0%nat; split; [reflexivity|]; split; [apply starts_iff; exact E|intros; lia]|]. assert (Z0 : ~ occurs d (c :: s) 0) by (intros X; apply starts_iff in X; congruence). destruct (find d s) as [p|]; cbn [option_map].
    + destruct IH as (q & -> & A & B). exists (S q). split; [lia|]. split; [apply occurs_cons; exact A|]. intros [|r] Hr; [exact Z0|]. rewrite occurs_cons. apply B. lia.
    + intros [|q]; [exact Z0|]. rewrite occurs_cons. apply IH.
Qed.
Lemma find_at d s q : occurs d s q -> (forall r, (r < q)%nat -> ~ occurs d s r) -> find d s = Some (Z.of_nat q).
Proof.
  intros A B. assert (X := find_spec d s). destruct (find d s) as [p|]; [|destruct (X q A)]. destruct X as (q' & -> & A' & B'). f_equal. f_equal. destruct (Nat.lt_trichotomy q q') as [L|[L|L]]; [destruct (B' q L A)|symmetry; exact L|destruct (B q' L A')].
Qed.
Lemma find_none d s : (forall q, ~ occurs d s q) -> find d s = None.
Proof. intros A. assert (X := find_spec d s). destruct (find d s) as [p|]; [|reflexivity]. destruct X as (q & _ & X & _). destruct (A q X). Qed.
Lemma digit_iff c : digit c = true <-> 48 <= c <= 57.
Proof. unfold digit. rewrite andb_true_iff, !Z.leb_le. lia. Qed.
Lemma number_digits l : forall a, digits l -> number a l = fold_left (fun a c => 10 * a + (c - 48)) l a.
Proof. induction l as [|c l IH]; intros a D; cbn [number fold_left]; [reflexivity|]. rewrite (proj2 (digit_iff c) (D c (or_introl eq_refl))). apply IH. intros x X. apply D. right. exact X. Qed.
Lemma atoi_digits l : digits l -> atoi l = spells l.
Proof.
  intros D. destruct l as [|c l]; [reflexivity|]. cbn [atoi]. assert (C := D c (or_introl eq_refl)). unfold space. destruct (Z.eqb_spec c 32); [lia|]. destruct (Z.leb_spec 9 c), (Z.leb_spec c 13); cbn [andb orb]; try lia. destruct (Z.eqb_spec c 45); [lia|]. destruct (Z.eqb_spec c 43); [lia|]. apply number_digits. exact D.
Qed.
Lemma spells_bound l : digits l -> 0 <= spells l < 10 ^ Z.of_nat (length l).
Proof.
  unfold spells. induction l as [|c l IH] using rev_ind; intros D; [cbn; lia|]. rewrite fold_left_app, app_length, Nat2Z.inj_add, Z.pow_add_r by lia. cbn [fold_left length]. specialize (IH (fun x X => D x (in_or_app _ _ _ (or_introl X)))). assert (C : 48 <= c <= 57) by (apply D, in_or_app; right; left; reflexivity). change (10 ^ Z.of_nat 1) with 10. lia.
Qed.
Lemma key_spec prefix cnt s q : (forall r, (r < q)%nat -> ~ occurs prefix s r) -> occurs prefix s q -> len s < 2 ^ 64 -> 0 <= cnt <= 18 -> digits (firstn (Z.to_nat cnt) (skipn (q + length prefix) s)) ->
  key prefix cnt s = Some (spells (firstn (Z.to_nat cnt) (skipn (q + length prefix) s))).
Proof.
  intros B A L C D. unfold key. rewrite (find_at prefix s q A B). cbv zeta. unfold substr, len in *. destruct A as [A _]. rewrite Z.mod_small by lia. destruct (Z.leb_spec (Z.of_nat q + Z.of_nat (length prefix)) (Z.of_nat (length s))); [|lia]. replace (Z.to_nat (Z.of_nat q + Z.of_nat (length prefix))) with (q + length prefix)%nat by lia. rewrite atoi_digits by exact D. f_equal. apply Z.mod_small.
  assert (X := spells_bound _ D). assert (Y : 10 ^ Z.of_nat (length (firstn (Z.to_nat cnt) (skipn (q + length prefix) s))) <= 10 ^ 18) by (apply Z.pow_le_mono_r; [lia|]; rewrite firstn_length; lia). lia.
Qed.
(* PETS *)
Fixpoint all_some {A} (l : list (option A)) : option (list A) := match l with [] => Some [] | Some x :: l => option_map (cons x) (all_some l) | None :: _ => None end.
Lemma pets_spec : forall paths k l, match pets k paths l, all_some (map (key image_ 4) paths) with
  | Some l', Some keys => forall n, match lookup l' n with Some v => (exists j, v = k + Z.of_nat j /\ last_place keys n j) \/ ((forall j, nth_error keys j <> Some n) /\ lookup l n = Some v) | None => (forall j, nth_error keys j <> Some n) /\ lookup l n = None end
  | None, None => True
  | _, _ => False
  end.
Proof.
  induction paths as [|s r IH]; intros k l; cbn [pets map all_some].
  - intros n. destruct (lookup l n); [right|]; (split; [intros [|j]; discriminate|reflexivity]).
  - destruct (key image_ 4 s) as [a|]; [|exact I]. specialize (IH (k + 1) ((a, k) :: l)). destruct (pets (k + 1) r ((a, k) :: l)) as [l'|], (all_some (map (key image_ 4) r)) as [keys|]; cbn [option_map]; try contradiction; [|exact I]. intros n. specialize (IH n). destruct (lookup l' n) as [v|].
    + destruct IH as [(j & -> & P & Q)|(P & Q)].
      * left. exists (S j). split; [lia|]. split; [exact P|]. intros [|i] Hi; [lia|]. apply Q. lia.
      * cbn [lookup] in Q. destruct (Z.eqb_spec a n) as [->|N].
        -- left. exists 0%nat. injection Q as <-. split; [lia|]. split; [reflexivity|]. intros [|i] Hi; [lia|]. apply P.
        -- right. split; [|exact Q]. intros [|j]; [cbn [nth_error]; congruence|apply P].
    + destruct IH as (P & Q). cbn [lookup] in Q. destruct (Z.eqb_spec a n) as [->|N]; [discriminate|]. split; [|exact Q]. intros [|j]; [cbn [nth_error]; congruence|apply P].
Qed.
(* five digits *)
Lemma five_digits i : 0 <= i -> digits (five i) /\ length (five i) = 5%nat.
Proof. intros H. split; [|reflexivity]. intros c C. unfold five in C. apply in_map_iff in C. destruct C as (d & <- & _). assert (X := Z.mod_pos_bound (i / d) 10 ltac:(lia)). lia. Qed.
Lemma five_spells i : 0 <= i < 100000 -> spells (five i) = i.
Proof.
  intros H. unfold five, spells. cbn [map fold_left]. rewrite Z.div_1_r.
  assert (A := Z.div_mod i 10 ltac:(lia)). assert (A' := Z.mod_pos_bound i 10 ltac:(lia)).
  assert (E2 : i / 100 = i / 10 / 10) by (rewrite Z.div_div by lia; reflexivity). assert (E3 : i / 1000 = i / 10 / 10 / 10) by (rewrite !Z.div_div by lia; reflexivity). assert (E4 : i / 10000 = i / 10 / 10 / 10 / 10) by (rewrite !Z.div_div by lia; reflexivity). rewrite E2, E3, E4.
  assert (B := Z.div_mod (i / 10) 10 ltac:(lia)). assert (B' := Z.mod_pos_bound (i / 10) 10 ltac:(lia)). assert (C := Z.div_mod (i / 10 / 10) 10 ltac:(lia)). assert (C' := Z.mod_pos_bound (i / 10 / 10) 10 ltac:(lia)). assert (D := Z.div_mod (i / 10 / 10 / 10) 10 ltac:(lia)). assert (D' := Z.mod_pos_bound (i / 10 / 10 / 10) 10 ltac:(lia)).
  assert (F : (i / 10 / 10 / 10 / 10) mod 10 = i / 10 / 10 / 10 / 10) by (apply Z.mod_small; lia). rewrite F. lia.
Qed.
Lemma spells_inj a b : length a = 5%nat -> length b = 5%nat -> digits a -> digits b -> spells a = spells b -> a = b.
Proof.
  intros A B DA DB E. do 5 (destruct a as [|? a]; [discriminate A|]). destruct a; [|discriminate A]. do 5 (destruct b as [|? b]; [discriminate B|]). destruct b; [|discriminate B].
  unfold spells in E. cbn [fold_left] in E. unfold digits in DA, DB. cbn [In] in DA, DB.
  repeat match goal with H : forall c, ?x = c \/ _ -> _ |- _ => assert (48 <= x <= 57) by (apply H; left; reflexivity); assert (forall c, _ -> 48 <= c <= 57) by (exact (fun c X => H c (or_intror X))); clear H end.
  repeat (f_equal; [lia|]); f_equal; lia.
Qed.
Lemma nth_firstn_lt {A} (l : list A) d : forall n i, (i < n)%nat -> nth i (firstn n l) d = nth i l d.
Proof. induction l as [|a l IH]; intros [|n] [|i] H; cbn [firstn nth]; try reflexivity; try lia. apply IH. lia. Qed.
Lemma nth_skipn_add {A} (l : list A) d : forall n i, nth i (skipn n l) d = nth (n + i) l d.
Proof. induction l as [|a l IH]; intros [|n] i; cbn [skipn nth Nat.add]; try reflexivity; [destruct i; reflexivity|apply IH]. Qed.
Lemma occurs_slice d s p : occurs d s p <-> (p + length d <= length s)%nat /\ firstn (length d) (skipn p s) = d.
Proof.
  split; intros [L E]; (split; [exact L|]).
  - apply (nth_ext _ _ 0 0); [rewrite firstn_length, skipn_length; lia|]. intros i Hi. rewrite firstn_length, skipn_length in Hi. rewrite nth_firstn_lt by lia. rewrite nth_skipn_add. apply E. lia.
  - intros i Hi. rewrite <- E at 1. rewrite nth_firstn_lt by lia. rewrite nth_skipn_add. reflexivity.
Qed.

(* a path with five digits in a row at one place only *)
Definition one_place (s : str) (p : nat) : Prop := (p + 5 <= length s)%nat /\ digits (firstn 5 (skipn p s)) /\ forall q, (q + 5 <= length s)%nat -> digits (firstn 5 (skipn q s)) -> q = p.
Lemma matcher_iff i s p : 0 <= i < 100000 -> one_place s p -> matcher i s = true <-> spells (firstn 5 (skipn p s)) = i.
Proof.
  intros H (L & D & U). destruct (five_digits i ltac:(lia)) as [F1 F2]. unfold matcher. assert (X := find_spec (five i) s). split.
  - destruct (find (five i) s) as [q|]; [|discriminate]. intros _. destruct X as (q' & _ & X & _). apply occurs_slice in X. rewrite F2 in X. destruct X as [X1 X2]. assert (E : q' = p) by (apply U; [exact X1|rewrite X2; exact F1]). subst q'. rewrite X2. apply five_spells. exact H.
  - intros E. destruct (find (five i) s) as [q|]; [reflexivity|]. exfalso. apply (X p). apply occurs_slice. rewrite F2. split; [exact L|]. apply spells_inj; [rewrite firstn_length, skipn_length; lia|exact F2|exact D|exact F1|]. rewrite E. symmetry. apply five_spells. exact H.
Qed.
(* the packets that have a ground truth *)
Lemma packets_spec streams : forall subset n gts (l : lut), (forall m, n <= m -> lookup l m = None) -> let st := packets streams n subset (gts, l) in
  fst st = gts ++ filter got (map (packet streams) subset) /\
  (forall m, m < n -> lookup (snd st) m = lookup l m) /\
  forall j, lookup (snd st) (n + Z.of_nat j) = match nth_error subset j with
    | Some i => if got (packet streams i) then Some (Z.of_nat (length gts) + Z.of_nat (length (filter got (map (packet streams) (firstn j subset))))) else None
    | None => None end.
Proof.
  induction subset as [|i r IH]; intros n gts l L; cbn [packets].
  - cbn [fst snd map filter]. split; [rewrite app_nil_r; reflexivity|]. split; [reflexivity|]. intros j. rewrite L by lia. destruct j; reflexivity.
  - cbv zeta. cbn [fst snd map filter]. destruct (got (packet streams i)) eqn:G.
    + assert (L' : forall m, n + 1 <= m -> lookup ((n, Z.of_nat (length (gts ++ [packet streams i])) - 1) :: l) m = None) by (intros m Hm; cbn [lookup]; destruct (Z.eqb_spec n m); [lia|apply L; lia]).
      destruct (IH (n + 1) (gts ++ [packet streams i]) _ L') as (A & B & C). split; [etransitivity; [exact A|]; rewrite <- app_assoc; reflexivity|]. split.
      * intros m Hm. etransitivity; [apply B; lia|]. cbn [lookup]. destruct (Z.eqb_spec n m); [lia|reflexivity].
      * intros [|j].
        -- cbn [nth_error firstn map filter length]. rewrite G. replace (n + Z.of_nat 0) with n by lia. etransitivity; [apply B; lia|]. cbn [lookup]. rewrite Z.eqb_refl, app_length. cbn [length]. f_equal. lia.
        -- replace (n + Z.of_nat (S j)) with (n + 1 + Z.of_nat j) by lia. etransitivity; [apply C|]. cbn [nth_error firstn map filter]. rewrite G. cbn [length]. rewrite app_length. cbn [length]. destruct (nth_error r j) as [k|]; [|reflexivity]. destruct (got (packet streams k)); [|reflexivity]. f_equal. lia.
    + destruct (IH (n + 1) gts l (fun m Hm => L m ltac:(lia))) as (A & B & C). split; [exact A|]. split.
      * intros m Hm. apply B. lia.
      * intros [|j].
        -- cbn [nth_error]. rewrite G, B by lia. apply L. lia.
        -- replace (n + Z.of_nat (S j)) with (n + 1 + Z.of_nat j) by lia. rewrite C. cbn [nth_error firstn map filter]. rewrite G. reflexivity.
Qed.
(* Wallflower *)
Definition is_gt (sp s : str) : bool := negb (str_eqb s sp) && match find hand_segmented_ s with Some _ => true | None => false end.
Definition is_input (sp s : str) : bool := negb (str_eqb s sp) && match find hand_segmented_ s with Some _ => false | None => true end.
Lemma str_eqb_eq a b : str_eqb a b = true <-> a = b.
Proof. unfold str_eqb. destruct (list_eq_dec Z.eq_dec a b); split; intros; congruence. Qed.
Lemma is_gt_iff sp s : is_gt sp s = true <-> s <> sp /\ exists q, occurs hand_segmented_ s q.
Proof.
  unfold is_gt. rewrite andb_true_iff, negb_true_iff. assert (X := find_spec hand_segmented_ s). assert (E := str_eqb_eq s sp). destruct (str_eqb s sp).
  - split; intros [A B]; [discriminate|]. destruct (A (proj1 E eq_refl)).
  - assert (N : s <> sp) by (intros F; apply E in F; discriminate). destruct (find hand_segmented_ s) as [p|].
    + destruct X as (q & _ & X & _). split; [intros _; split; [exact N|exists q; exact X]|auto].
    + split; [intros [_ B]; discriminate|]. intros [_ (q & Q)]. destruct (X q Q).
Qed.
Lemma is_input_iff sp s : is_input sp s = true <-> s <> sp /\ forall q, ~ occurs hand_segmented_ s q.
Proof.
  unfold is_input. rewrite andb_true_iff, negb_true_iff. assert (X := find_spec hand_segmented_ s). assert (E := str_eqb_eq s sp). destruct (str_eqb s sp).
  - split; intros [A B]; [discriminate|]. destruct (A (proj1 E eq_refl)).
  - assert (N : s <> sp) by (intros F; apply E in F; discriminate). destruct (find hand_segmented_ s) as [p|].
    + destruct X as (q & _ & X & _). split; [intros [_ B]; discriminate|]. intros [_ B]. destruct (B q X).
    + split; [intros _; split; [exact N|exact X]|auto].
Qed.
Lemma bmp_last s : 4 <= len s < 2 ^ 64 -> ((match find bmp s with Some p => p | None => 2 ^ 64 - 1 end) =? (len s - 4) mod 2 ^ 64) = true <-> exists q, (q + 4 = length s)%nat /\ occurs bmp s q /\ forall r, (r < q)%nat -> ~ occurs bmp s r.
Proof.
  intros L. rewrite Z.eqb_eq, Z.mod_small by lia. unfold len in *. assert (X := find_spec bmp s). destruct (find bmp s) as [p|].
  - destruct X as (q & -> & A & B). split; [intros E; exists q; split; [lia|]; split; assumption|]. intros (q' & E & A' & B'). destruct (Nat.lt_trichotomy q q') as [H|[H|H]]; [destruct (B' q H A)|subst; lia|destruct (B q' H A')].
  - split; [lia|]. intros (q & _ & A & _). destruct (X q A).
Qed.
Lemma wallflower_spec sp : forall paths st st', wallflower sp paths st = Some st' ->
  inputs st' = inputs st ++ filter (is_input sp) paths /\ gts st' = gts st ++ filter (is_gt sp) paths /\ (script st' = true <-> script st = true \/ In sp paths) /\
  (exists l, index st' = l ++ index st /\ length l = length (filter (is_gt sp) paths) /\ forall j s, nth_error (filter (is_gt sp) paths) j = Some s -> exists n, key hand_segmented_ 5 s = Some n /\ nth_error (rev l) j = Some (n, Z.of_nat (length (gts st) + j))) /\
  (forall s, In s paths -> is_input sp s = true -> ((match find bmp s with Some p => p | None => 2 ^ 64 - 1 end) =? (len s - 4) mod 2 ^ 64) = true).
Proof.
  induction paths as [|s r IH]; intros st st' E; cbn [wallflower] in E.
  - injection E as <-. cbn [filter]. rewrite !app_nil_r. split; [reflexivity|]. split; [reflexivity|]. split; [split; [auto|intros [H|[]]; exact H]|]. split; [|intros ? []]. exists []. split; [reflexivity|]. split; [reflexivity|]. intros [|j] ? H; discriminate.
  - cbn [filter]. destruct (str_eqb s sp) eqn:S.
    + assert (G : is_gt sp s = false) by (unfold is_gt; rewrite S; reflexivity). assert (N : is_input sp s = false) by (unfold is_input; rewrite S; reflexivity). rewrite G, N. destruct (IH _ _ E) as (A & B & C & D & F). cbn [inputs gts index script] in *. split; [exact A|]. split; [exact B|]. split; [split; [intros _; right; left; apply str_eqb_eq; exact S|intros _; apply C; left; reflexivity]|]. split; [exact D|]. intros x [<-|X] Y; [congruence|exact (F x X Y)].
    + destruct (find hand_segmented_ s) as [p|] eqn:H.
      * assert (G : is_gt sp s = true) by (unfold is_gt; rewrite S, H; reflexivity). assert (N : is_input sp s = false) by (unfold is_input; rewrite S, H; reflexivity). rewrite G, N. destruct (key hand_segmented_ 5 s) as [n|] eqn:K; [|discriminate]. destruct (IH _ _ E) as (A & B & C & (l & D1 & D2 & D3) & F). cbn [inputs gts index script] in *. split; [exact A|]. split; [rewrite B, <- app_assoc; reflexivity|]. split; [rewrite C; split; (intros [X|X]; [left; exact X|right]); [right; exact X|]; destruct X as [X|X]; [exfalso; apply str_eqb_eq in X; congruence|exact X]|]. split.
        -- exists (l ++ [(n, Z.of_nat (length (gts st)))]). split; [rewrite D1, <- app_assoc; reflexivity|]. split; [rewrite app_length; cbn [length]; lia|]. rewrite rev_app_distr. cbn [rev app]. intros [|j] x X; cbn [nth_error] in *.
           ++ injection X as <-. exists n. split; [exact K|]. rewrite Nat.add_0_r. reflexivity.
           ++ destruct (D3 j x X) as (m & M1 & M2). exists m. split; [exact M1|]. rewrite M2, app_length. cbn [length]. replace (length (gts st) + 1 + j)%nat with (length (gts st) + (1 + j))%nat by lia. reflexivity.
        -- intros x [<-|X] Y; [congruence|exact (F x X Y)].
      * assert (G : is_gt sp s = false) by (unfold is_gt; rewrite S, H; reflexivity). assert (N : is_input sp s = true) by (unfold is_input; rewrite S, H; reflexivity). rewrite G, N. destruct ((match find bmp s with Some p => p | None => 2 ^ 64 - 1 end) =? (len s - 4) mod 2 ^ 64) eqn:Q; cbn [negb] in E; [|discriminate]. destruct (IH _ _ E) as (A & B & C & D & F). cbn [inputs gts index script] in *. split; [rewrite A, <- app_assoc; reflexivity|]. split; [exact B|]. split; [rewrite C; split; (intros [X|X]; [left; exact X|right]); [right; exact X|]; destruct X as [X|X]; [exfalso; apply str_eqb_eq in X; congruence|exact X]|]. split; [exact D|]. intros x [<-|X] Y; [exact Q|exact (F x X Y)].
Qed.
