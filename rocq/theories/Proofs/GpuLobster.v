(* LOBSTER on the graphics card: proofs. *)
From Coq Require Import ZArith NArith List Bool Lia.
From Verif Require Import Lib.Grid Model.Distances Model.Sampling Model.GlRandom Spec.GlRandom Proofs.GlRandom Model.Bits Spec.Lbsp Spec.Subsense Proofs.Subsense Proofs.Sampling Spec.Sampling Spec.Vibe Model.Lobster Spec.Lobster Proofs.Lbsp Proofs.Lobster Model.GpuLobster Spec.GpuLobster.
Import ListNotations.
Open Scope Z_scope.

Lemma similar_ext k cthr tthr lut size img p b d b' d' : (forall ch, 0 <= ch < (if k =? 1 then 1 else 3) -> b ch = b' ch) -> (forall ch, 0 <= ch < (if k =? 1 then 1 else 3) -> d ch = d' ch) ->
  similar k cthr tthr lut size img p b d -> similar k cthr tthr lut size img p b' d'.
Proof.
  intros B D. unfold similar. destruct (k =? 1); [rewrite (B 0), (D 0) by lia; tauto|]. rewrite !(B 0), !(B 1), !(B 2), !(D 0), !(D 1), !(D 2) by lia. intros (A & X & Y). split; [|tauto]. intros ch C. rewrite <- !B, <- !D by lia. apply A, C.
Qed.
Section Gpu.
Variables (c : config) (size : Z * Z).
Hypothesis F : fits c size.
Notation n := (channels c).
Notation nb := (nb c).

Lemma channels_cases : n = 1 \/ n = 4. Proof. apply F. Qed.
Lemma nb_pos : 0 < nb. Proof. destruct F as (_ & S & _). unfold GpuLobster.nb. lia. Qed.
Lemma padding_nonneg : 0 <= padding c.
Proof. unfold padding. destruct (Z.eqb_spec (px_size c mod 4) 0); [lia|]. pose proof (Z.mod_pos_bound (px_size c) 4 ltac:(lia)). lia. Qed.
Lemma stride_step : stride_430 c = col_step c.
Proof.
  pose proof nb_pos. unfold stride_430, col_step, px_size, vec. destruct channels_cases as [E|E]; rewrite E; cbn [Z.eqb Pos.eqb].
  - rewrite Z.div_1_r. lia.
  - unfold padding, px_size. rewrite E. replace (4 * nb * 2) with (2 * nb * 4) by ring. rewrite Z.mod_mul by lia. cbn [Z.eqb]. replace (nb * 4 + nb * 4 + 0 + 4 - 1) with (3 + 2 * nb * 4) by ring. rewrite Z.div_add by lia. change (3 / 4) with 0. lia.
Qed.
Lemma vec_n : vec c = n.
Proof. unfold vec. destruct channels_cases as [E|E]; rewrite E; reflexivity. Qed.
Lemma step_large : 2 * (nb * n) <= col_step c.
Proof. unfold col_step, px_size. pose proof padding_nonneg. lia. Qed.
Lemma index_place p : in_image size p -> model_index size p = place size p.
Proof.
  destruct F as (_ & _ & W & H & L). intros (X & Y). unfold model_index, place. change (2 ^ 32) with 4294967296 in *.
  assert (fst p < 4294967296) by nia. assert (snd p < 4294967296) by nia. rewrite !(Z.mod_small (snd p)), !(Z.mod_small (fst p)) by lia. rewrite Z.mod_small; nia.
Qed.
Definition addr (p : Z * Z) (t : bool) (s : nat) (ch : Z) : Z := place size p * col_step c + (((if t then nb else 0) + Z.of_nat s) * n + ch).
Lemma host_colour_addr p s ch : host_colour c size p s ch = addr p false s ch.
Proof. unfold host_colour, addr, place, row_step. ring. Qed.
Lemma host_texture_addr p s ch : host_texture c size p s ch = addr p true s ch.
Proof. unfold host_texture, addr, place, row_step. ring. Qed.
Lemma gpu_colour_addr p s ch : in_image size p -> gpu_colour c (model_index size p) s ch = addr p false s ch.
Proof. intro P. unfold gpu_colour, addr. rewrite (index_place p P), stride_step, vec_n. ring. Qed.
Lemma gpu_texture_addr p s ch : in_image size p -> gpu_texture c (model_index size p) s ch = addr p true s ch.
Proof. intro P. unfold gpu_texture, addr. rewrite (index_place p P), stride_step, vec_n. ring. Qed.
Lemma euclid m a r a' r' : 0 <= r < m -> 0 <= r' < m -> a * m + r = a' * m + r' -> a = a' /\ r = r'.
Proof. intros R R' E. assert (a = a') by nia. subst a'. lia. Qed.
Lemma offset_range (t : bool) (s : nat) ch : (s < samples c)%nat -> 0 <= ch < n -> 0 <= ((if t then nb else 0) + Z.of_nat s) * n + ch < col_step c.
Proof. intros S C. pose proof step_large. assert (Z.of_nat s < nb) by (unfold GpuLobster.nb; lia). pose proof nb_pos. destruct t; nia. Qed.
Lemma addr_inj p t s ch p' t' s' ch' : in_image size p -> in_image size p' -> (s < samples c)%nat -> (s' < samples c)%nat -> 0 <= ch < n -> 0 <= ch' < n ->
  addr p t s ch = addr p' t' s' ch' -> p = p' /\ t = t' /\ s = s' /\ ch = ch'.
Proof.
  intros P P' S S' C C' E. unfold addr in E. apply euclid in E; [|apply offset_range; assumption|apply offset_range; assumption]. destruct E as (Ep & Eo).
  apply (place_inj size p p' P P') in Ep. apply euclid in Eo; [|assumption|assumption]. destruct Eo as (Es & Ec).
  assert (Z.of_nat s < nb) by (unfold GpuLobster.nb; lia). assert (Z.of_nat s' < nb) by (unfold GpuLobster.nb; lia). destruct t, t'; repeat split; try assumption; try reflexivity; lia.
Qed.
Lemma addr_range p t s ch : in_image size p -> (s < samples c)%nat -> 0 <= ch < n -> 0 <= addr p t s ch < model_size c size.
Proof.
  intros P S C. pose proof (offset_range t s ch S C) as O. pose proof (place_range size p P) as R. unfold addr, model_size, row_step. set (o := ((if t then nb else 0) + Z.of_nat s) * n + ch) in *. nia.
Qed.
Lemma compared_channel ch : compared c ch -> 0 <= ch < n.
Proof. unfold compared. destruct channels_cases as [E|E]; rewrite E; cbn [Z.eqb Pos.eqb]; lia. Qed.
Lemma swap_compared ch : compared c ch -> compared c (swap c ch).
Proof. unfold compared, swap. destruct channels_cases as [E|E]; rewrite E; cbn [Z.eqb Pos.eqb]; intro; destruct (Z.eqb_spec ch 3); cbn [orb]; lia. Qed.
Lemma swap_range ch : 0 <= ch < n -> 0 <= swap c ch < n.
Proof. unfold swap. destruct channels_cases as [E|E]; rewrite E; cbn [Z.eqb Pos.eqb]; intro; destruct (Z.eqb_spec ch 3); cbn [orb]; lia. Qed.
Lemma swap_swap ch : 0 <= ch < n -> swap c (swap c ch) = ch.
Proof.
  unfold swap. destruct channels_cases as [E|E]; rewrite E; intro C.
  - replace ch with 0 by lia. reflexivity.
  - assert (T : ch = 0 \/ ch = 1 \/ ch = 2 \/ ch = 3) by lia. destruct T as [->|[->|[->| ->]]]; reflexivity.
Qed.
Lemma lanes_compared ch : In ch (lanes c) <-> compared c ch.
Proof. unfold lanes, compared. destruct channels_cases as [E|E]; rewrite E; cbn [Z.eqb Pos.eqb In]; lia. Qed.
Lemma lanes_nth j : (j < length (lanes c))%nat -> nth j (lanes c) 0 = Z.of_nat j /\ compared c (Z.of_nat j).
Proof. unfold lanes, compared. destruct channels_cases as [E|E]; rewrite E; cbn [Z.eqb Pos.eqb length]; intro L; do 3 (destruct j as [|j]; [first [exfalso; lia|split; [reflexivity|lia]]|]); lia. Qed.
Lemma compared_lanes k : compared c k -> (Z.to_nat k < length (lanes c))%nat.
Proof. unfold lanes, compared. destruct channels_cases as [E|E]; rewrite E; cbn [Z.eqb Pos.eqb length]; lia. Qed.

(* ------------------------------------------------------------------ textures *)
Lemma texel_value img p k : in_image size p -> texel c size img p k = value n size img p (swap c k).
Proof. intros (X & Y). unfold texel, value, place. rewrite !(proj2 (Z.leb_le _ _)), !(proj2 (Z.ltb_lt _ _)) by lia. reflexivity. Qed.
Definition horner (l : list bool) : Z := fold_right (fun (b : bool) acc => 2 * acc + Z.b2z b) 0 l.
Lemma horner_bit l : forall i, Z.testbit (horner l) (Z.of_nat i) = nth i l false.
Proof.
  induction l as [|b l IH]; intro i; [cbn [horner fold_right nth]; rewrite Z.testbit_0_l; destruct i; reflexivity|]. cbn [horner fold_right]. fold (horner l). destruct i as [|i].
  - apply Z.testbit_0_r.
  - rewrite Nat2Z.inj_succ, Z.testbit_succ_r by lia. apply IH.
Qed.
Lemma horner_range l : 0 <= horner l < 2 ^ Z.of_nat (length l).
Proof.
  induction l as [|b l IH]; [cbn; lia|]. cbn [horner fold_right length]. fold (horner l). rewrite Nat2Z.inj_succ, Z.pow_succ_r by lia. destruct b; cbn [Z.b2z]; lia.
Qed.
Lemma lbsp_horner img t ref p k : lbsp c size img t ref p k = horner (map (fun o => t <? Z.abs (texel c size img (fst p + fst o, snd p + snd o) k - ref)) pattern).
Proof.
  unfold lbsp, dbcross, pattern, horner. cbn [fold_right map fst snd].
  repeat match goal with |- context [t <? ?e] => let b := fresh "b" in set (b := t <? e); clearbody b end.
  rewrite !Z.shiftl_mul_pow2 by lia.
  repeat match goal with |- context [if ?b then 1 else 0] => change (if b then 1 else 0) with (Z.b2z b) end.
  repeat match goal with |- context [2 ^ Zpos ?e] => let r := eval compute in (2 ^ Zpos e) in change (2 ^ Zpos e) with r end. change (2 ^ 0) with 1. ring.
Qed.
Lemma inner_shift p o : inner size p -> In o pattern -> in_image size (fst p + fst o, snd p + snd o).
Proof. intros (X & Y) I. unfold in_image. cbn [fst snd]. unfold pattern in I. cbn [In] in I. repeat (destruct I as [<-|I]; [cbn [fst snd]; lia|]). destruct I. Qed.
Lemma lbsp_descriptor img t ref p k : inner size p -> is_descriptor (around n size img p (swap c k)) ref t (lbsp c size img t ref p k).
Proof.
  intro P. rewrite lbsp_horner. split; [exact (horner_range _)|]. intros i v V. rewrite horner_bit. unfold around in V. rewrite nth_error_map in V. destruct (nth_error pattern i) as [o|] eqn:O; [|discriminate]. cbn [option_map] in V. injection V as <-.
  rewrite (nth_indep _ false (t <? Z.abs (texel c size img (fst p + fst (0, 0), snd p + snd (0, 0)) k - ref))) by (rewrite map_length; apply nth_error_Some; rewrite O; discriminate).
  rewrite (map_nth (fun o => t <? Z.abs (texel c size img (fst p + fst o, snd p + snd o) k - ref))). rewrite (nth_error_nth _ _ (0, 0) O). rewrite texel_value by (apply inner_shift; [exact P|eapply nth_error_In; exact O]). apply Z.ltb_lt.
Qed.
Lemma bits_distance img t ref p k d : inner size p -> 0 <= d < 2 ^ 16 -> bit_distance (lbsp c size img t ref p k) d = mismatch (around n size img p (swap c k)) ref t d.
Proof.
  intros P D. pose proof (lbsp_descriptor img t ref p k P) as L. rewrite (mismatch_bits _ _ _ _ d (eq_refl : length (around n size img p (swap c k)) = 16%nat) L). set (e := lbsp c size img t ref p k) in *. destruct L as ((E0 & E1) & _).
  assert (Hi : forall x, 0 <= x < 2 ^ 16 -> forall i, 16 <= i -> Z.testbit x i = false). { intros x X i I. destruct (Z.eq_dec x 0) as [->|X0]; [apply Z.testbit_0_l|]. apply Z.bits_above_log2; [lia|]. assert (Z.log2 x < 16) by (apply Z.log2_lt_pow2; lia). lia. }
  unfold bit_distance. change (zrange 0 32) with (map Z.of_nat (seq 0 16) ++ map Z.of_nat (seq 16 16)). rewrite count_app, !count_map.
  rewrite (count_ext_in _ (fun i : nat => false) (seq 16 16)). 2: { intros i I. apply in_seq in I. rewrite Z.lxor_spec, (Hi e), (Hi d) by lia. reflexivity. }
  replace (count (fun _ : nat => false) (seq 16 16)) with 0 by reflexivity. rewrite Z.add_0_r. apply count_ext_in. intros i _. apply Z.lxor_spec.
Qed.
Lemma good_similar img p b d : inner size p -> (forall k, compared c k -> 0 <= d k < 2 ^ 16) ->
  (good_sample c size img p b d = true <-> similar n (colour_threshold c) (texture_threshold c) (lut_of c) size img p (fun ch => b (swap c ch)) (fun ch => d (swap c ch))).
Proof.
  intros P D. pose proof (inner_image size p P) as IP. unfold good_sample, similar, lanes. destruct channels_cases as [E|E].
  - assert (SW : forall k, compared c k -> swap c k = k) by (intros k _; unfold swap; rewrite E, orb_true_r; reflexivity). assert (C0 : compared c 0) by (unfold compared; rewrite E; cbn; lia).
    rewrite (bits_distance img _ _ p 0 (d 0) P (D 0 C0)), (texel_value img p 0 IP). rewrite !(SW 0 C0). rewrite E. cbn [Z.eqb Pos.eqb]. rewrite andb_true_iff, !Z.leb_le. tauto.
  - assert (CC : forall k, 0 <= k < 3 -> compared c k) by (intros k K; unfold compared; rewrite E; cbn; lia).
    assert (SW : forall k, 0 <= k < 3 -> swap c k = 2 - k) by (intros k K; unfold swap; rewrite E; destruct (Z.eqb_spec k 3); [lia|reflexivity]).
    rewrite E. cbn [Z.eqb Pos.eqb]. unfold sum. cbn [forallb map fold_right]. rewrite !bits_distance by first [exact P|apply D, CC; lia]. rewrite !(texel_value img p _ IP).
    rewrite !(SW 0), !(SW 1), !(SW 2) by lia. change (2 - 0) with 2. change (2 - 1) with 1. change (2 - 2) with 0. rewrite E. cbn [Z.eqb Pos.eqb]. unfold sum. cbn [fold_right]. rewrite !andb_true_iff, !Z.leb_le. split.
    + intros (((A & B) & G) & H). split; [|split; [lia|lia]]. intros ch C. assert (T : ch = 0 \/ ch = 1 \/ ch = 2) by lia. destruct T as [->|[->| ->]]; rewrite SW by lia; cbn [Z.sub Z.add Z.opp Z.pos_sub Pos.pred_double]; split; tauto || lia.
    + intros (A & B & G). pose proof (A 0 ltac:(lia)) as A0. pose proof (A 1 ltac:(lia)) as A1. pose proof (A 2 ltac:(lia)) as A2. rewrite SW in A0, A1, A2 by lia. change (2 - 0) with 2 in A0. change (2 - 1) with 1 in A1. change (2 - 2) with 0 in A2. repeat split; try tauto; lia.
Qed.

(* ------------------------------------------------------------------ stores *)
Definition stored_value (img : Z -> Z) (p : Z * Z) (t : bool) (ch : Z) : Z :=
  if (n =? 4) && (ch =? 3) then 0 else if t then lbsp c size img (lut_of c (texel c size img p ch)) (texel c size img p ch) p ch else texel c size img p ch.
Lemma stored_lane img p t ch : In ch (lanes c) -> stored_value img p t ch = if t then lbsp c size img (lut_of c (texel c size img p ch)) (texel c size img p ch) p ch else texel c size img p ch.
Proof. rewrite lanes_compared. unfold compared, stored_value. destruct (Z.eqb_spec n 4); cbn [andb]; [|reflexivity]. intro L. destruct (Z.eqb_spec ch 3); [lia|reflexivity]. Qed.
Lemma stores_to_in img p q i j a v : in_image size q -> (i < N.of_nat (samples c))%N -> (j < N.of_nat (samples c))%N -> In (a, v) (stores_to c size img p (model_index size q) i j) ->
  exists t s ch, (s < samples c)%nat /\ 0 <= ch < n /\ a = addr q t s ch /\ v = stored_value img p t ch.
Proof.
  intros Q I J H. unfold stores_to in H. rewrite !in_app_iff, !in_map_iff in H. destruct H as [(k & E & K)|[H|[(k & E & K)|H]]].
  - rewrite pair_equal_spec in E. destruct E as (<- & <-). exists false, (N.to_nat i), k. split; [lia|]. split; [apply compared_channel, lanes_compared, K|]. split; [apply gpu_colour_addr, Q|]. symmetry. exact (stored_lane img p false k K).
  - destruct (Z.eqb_spec n 4) as [E4|]; [|destruct H]. destruct H as [H|[]]. rewrite pair_equal_spec in H. destruct H as (<- & <-). exists false, (N.to_nat i), 3. split; [lia|]. split; [lia|]. split; [apply gpu_colour_addr, Q|]. unfold stored_value. rewrite E4. reflexivity.
  - rewrite pair_equal_spec in E. destruct E as (<- & <-). exists true, (N.to_nat j), k. split; [lia|]. split; [apply compared_channel, lanes_compared, K|]. split; [apply gpu_texture_addr, Q|]. symmetry. exact (stored_lane img p true k K).
  - destruct (Z.eqb_spec n 4) as [E4|]; [|destruct H]. destruct H as [H|[]]. rewrite pair_equal_spec in H. destruct H as (<- & <-). exists true, (N.to_nat j), 3. split; [lia|]. split; [lia|]. split; [apply gpu_texture_addr, Q|]. unfold stored_value. rewrite E4. reflexivity.
Qed.
Lemma neighbour_near p r : inner size p -> in_image size (rand_neighbour 0 (fst size) (snd size) p r) /\ within 1 (rand_neighbour 0 (fst size) (snd size) p r) p.
Proof.
  intros (X & Y). assert (A : GlRandom.around p (rand_neighbour 0 (fst size) (snd size) p (r mod 8))). { apply (neighbour_iff 0 (fst size) (snd size)). exists (r mod 8)%N. split; [|reflexivity]. pose proof (N.mod_lt r 8 ltac:(discriminate)). change (2 ^ 32)%N with 4294967296%N. lia. }
  replace (rand_neighbour 0 (fst size) (snd size) p (r mod 8)) with (rand_neighbour 0 (fst size) (snd size) p r) in A by (apply neighbour_mod; rewrite N.mod_mod by discriminate; reflexivity).
  destruct A as (_ & A & B). unfold in_image, within. lia.
Qed.
Lemma within_refl p : within 1 p p. Proof. unfold within. rewrite !Z.sub_diag. cbn. lia. Qed.
Lemma stores_in img rate p r a v : inner size p -> In (a, v) (stores c size img rate p r) ->
  exists q t s ch, in_image size q /\ within 1 q p /\ (s < samples c)%nat /\ 0 <= ch < n /\ a = addr q t s ch /\ v = stored_value img p t ch.
Proof.
  intros P H. unfold stores in H. cbv zeta in H. assert (M : forall x, (x mod N.of_nat (samples c) < N.of_nat (samples c))%N). { intro x. apply N.mod_lt. pose proof nb_pos. unfold GpuLobster.nb in *. lia. }
  rewrite in_app_iff in H. destruct H as [H|H].
  - destruct (r 0%nat mod rate =? 0)%N; [|destruct H]. destruct (stores_to_in _ _ _ _ _ _ _ (inner_image size p P) (M _) (M _) H) as (t & s & ch & A). exists p, t, s, ch. split; [apply inner_image, P|]. split; [apply within_refl|exact A].
  - match type of H with In _ (if ?b then _ else _) => destruct b end; [|destruct H]. match type of H with context [rand_neighbour 0 _ _ p ?x] => destruct (neighbour_near p x P) as (Q & W) end.
    destruct (stores_to_in _ _ _ _ _ _ _ Q (M _) (M _) H) as (t & s & ch & A). eexists _, t, s, ch. split; [exact Q|]. split; [exact W|exact A].
Qed.

(* ------------------------------------------------------------------ one invocation *)
Lemma put_same {A} (f : Z * Z -> A) p v : put f p v p = v.
Proof. unfold put. rewrite !Z.eqb_refl. reflexivity. Qed.
Lemma put_other {A} (f : Z * Z -> A) p v q : q <> p -> put f p v q = f q.
Proof. intro N. unfold put. destruct (Z.eqb_spec (fst q) (fst p)), (Z.eqb_spec (snd q) (snd p)); cbn [andb]; try reflexivity. exfalso. apply N. destruct p, q; cbn in *; congruence. Qed.
Lemma place_dec (p q : Z * Z) : p = q \/ p <> q.
Proof. destruct p as [a b], q as [x y]. destruct (Z.eq_dec a x), (Z.eq_dec b y); [left; congruence| | |]; right; congruence. Qed.

Lemma lanes_pos : (0 < length (lanes c))%nat.
Proof. unfold lanes. destruct (n =? 4); cbn; lia. Qed.
Section One.
(* what may be read of sample s, and what follows *)
Variables (img : Z -> Z) (p : Z * Z) (V : bool -> nat -> Z -> Z -> Prop) (g : nat -> bool).
Hypothesis PI : in_image size p.
Hypothesis G : forall s b d, (s < samples c)%nat -> (forall k, compared c k -> V false s k (b k)) -> (forall k, compared c k -> V true s k (d k)) -> good_sample c size img p b d = g s.
Definition consistent (l : place_in) : Prop :=
  (length (partial l) < 2 * length (lanes c))%nat /\ (read l <= samples c)%nat /\ good l = length (filter g (seq 0 (read l))) /\
  forall j, (j < length (partial l))%nat -> if (j <? length (lanes c))%nat then V false (read l) (Z.of_nat j) (nth j (partial l) 0) else V true (read l) (Z.of_nat (j - length (lanes c))) (nth j (partial l) 0).
Lemma fresh_consistent : consistent fresh.
Proof. clear PI G. unfold consistent, fresh. cbn [partial read good length seq filter]. pose proof lanes_pos. repeat split; try lia. Qed.
Lemma good_ext im q b d b' d' : (forall k, compared c k -> b k = b' k) -> (forall k, compared c k -> d k = d' k) -> good_sample c size im q b d = good_sample c size im q b' d'.
Proof.
  intros B D. unfold good_sample. pose proof lanes_compared as L. unfold lanes in *. destruct (n =? 4).
  - cbn [forallb map]. rewrite !(B 0), !(B 1), !(B 2), !(D 0), !(D 1), !(D 2) by (apply L; cbn; tauto). reflexivity.
  - rewrite !(B 0), !(D 0) by (apply L; cbn; tauto). reflexivity.
Qed.
Lemma step_consistent rate rnd w q : (reading c (at_ w p) = true -> forall t s k, (s < samples c)%nat -> compared c k -> V t s k (mem w (addr p t s k))) ->
  consistent (at_ w p) -> consistent (at_ (step c size img rate rnd w q) p).
Proof.
  intros M C. unfold step. destruct (place_dec q p) as [->|N].
  2: { destruct (reading c (at_ w q)); [cbn [at_]; rewrite put_other by congruence; exact C|]. destruct (good (at_ w q) <? required c)%nat; [exact C|]. destruct (nth_error _ _) as [[a v]|]; [|exact C]. cbn [at_]. rewrite put_other by congruence. exact C. }
  destruct (reading c (at_ w p)) eqn:R.
  2: { destruct (good (at_ w p) <? required c)%nat; [exact C|]. destruct (nth_error _ _) as [[a v]|]; [|exact C]. cbn [at_]. rewrite put_same. exact C. }
  specialize (M eq_refl). cbn [at_]. rewrite put_same. set (l := at_ w p) in *. set (v := mem w (next_word c size p l)). destruct C as (L & RS & GD & W).
  assert (RL : (read l < samples c)%nat). { unfold reading in R. apply andb_true_iff in R. destruct R as (R & _). apply Nat.ltb_lt in R. exact R. }
  assert (WV : forall j, (j < length (partial l ++ [v]))%nat -> if (j <? length (lanes c))%nat then V false (read l) (Z.of_nat j) (nth j (partial l ++ [v]) 0) else V true (read l) (Z.of_nat (j - length (lanes c))) (nth j (partial l ++ [v]) 0)).
  { intros j J. rewrite app_length in J. cbn [length] in J. destruct (Nat.eq_dec j (length (partial l))) as [->|NJ].
    - rewrite nth_middle. unfold v, next_word. destruct (Nat.ltb_spec (length (partial l)) (length (lanes c))) as [K|K].
      + rewrite gpu_colour_addr by exact PI. apply M; [exact RL|]. apply lanes_nth. exact K.
      + rewrite gpu_texture_addr by exact PI. apply M; [exact RL|]. apply lanes_nth. lia.
    - rewrite app_nth1 by lia. apply W. lia. }
  destruct (Nat.ltb_spec (length (partial l ++ [v])) (2 * length (lanes c))) as [K|K].
  - split; [exact K|]. split; [exact RS|]. split; [exact GD|exact WV].
  - assert (KL : length (partial l ++ [v]) = (2 * length (lanes c))%nat) by (rewrite app_length in *; cbn [length] in *; lia).
    split; [cbn [partial length]; pose proof lanes_pos; lia|]. cbn [read good partial]. split; [lia|]. split; [|intros j J; cbn in J; lia].
    rewrite (G (read l)); [|exact RL| |].
    + rewrite seq_S, filter_app, app_length. cbn [Nat.add filter]. destruct (g (read l)); cbn [length]; lia.
    + intros k K'. pose proof (compared_lanes k K') as B. specialize (WV (Z.to_nat k) ltac:(lia)). rewrite (proj2 (Nat.ltb_lt _ _) B) in WV. rewrite Z2Nat.id in WV by (pose proof (compared_channel k K'); lia). exact WV.
    + intros k K'. pose proof (compared_lanes k K') as B. specialize (WV (length (lanes c) + Z.to_nat k)%nat ltac:(lia)). rewrite (proj2 (Nat.ltb_ge _ _)) in WV by lia.
      replace (length (lanes c) + Z.to_nat k - length (lanes c))%nat with (Z.to_nat k) in WV by lia. rewrite Z2Nat.id in WV by (pose proof (compared_channel k K'); lia). exact WV.
Qed.
Lemma verdict l : consistent l -> reading c l = false -> ((good l < required c)%nat <-> (length (filter g (seq 0 (samples c))) < required c)%nat).
Proof.
  clear PI G. intros (_ & RS & GD & _) R. rewrite GD. assert (M : (length (filter g (seq 0 (read l))) <= length (filter g (seq 0 (samples c))))%nat).
  { replace (samples c) with (read l + (samples c - read l))%nat by lia. rewrite seq_app, filter_app, app_length. lia. }
  unfold reading in R. destruct (Nat.ltb_spec (read l) (samples c)) as [K|K]; cbn [andb] in R.
  - apply negb_false_iff, andb_true_iff in R. destruct R as (_ & R). apply Nat.leb_le in R. rewrite GD in R. lia.
  - replace (read l) with (samples c) by lia. tauto.
Qed.
End One.

(* ------------------------------------------------------------------ one frame *)
Section Frame.
Variables (roi : Z * Z -> Prop) (img m : Z -> Z) (rate : N) (rnd : Z * Z -> nat -> N).
Hypothesis RI : forall p, roi p -> inner size p.
Let go (sched : list (Z * Z)) (w : world) : world := fold_left (step c size img rate rnd) sched w.
Lemma run_snoc sched q : run c size img rate rnd (sched ++ [q]) m = step c size img rate rnd (run c size img rate rnd sched m) q.
Proof. unfold run. rewrite fold_left_app. reflexivity. Qed.
Lemma step_done w q p : reading c (at_ w p) = false -> reading c (at_ (step c size img rate rnd w q) p) = false /\ good (at_ (step c size img rate rnd w q) p) = good (at_ w p).
Proof.
  intro R. unfold step. destruct (place_dec q p) as [->|N].
  - rewrite R. destruct (good (at_ w p) <? required c)%nat; [tauto|]. destruct (nth_error _ _) as [[a v]|]; [|tauto]. cbn [at_]. rewrite put_same. split; [exact R|reflexivity].
  - destruct (reading c (at_ w q)); [cbn [at_]; rewrite put_other by congruence; tauto|]. destruct (good (at_ w q) <? required c)%nat; [tauto|]. destruct (nth_error _ _) as [[a v]|]; [|tauto]. cbn [at_]. rewrite put_other by congruence. tauto.
Qed.
Lemma run_done sched' : forall sched p, reading c (at_ (run c size img rate rnd sched m) p) = false ->
  good (at_ (run c size img rate rnd (sched ++ sched') m) p) = good (at_ (run c size img rate rnd sched m) p).
Proof.
  induction sched' as [|q l IH]; intros sched p R; [rewrite app_nil_r; reflexivity|]. replace (sched ++ q :: l) with ((sched ++ [q]) ++ l) by (rewrite <- app_assoc; reflexivity).
  destruct (step_done (run c size img rate rnd sched m) q p R) as (A & B). rewrite IH; rewrite run_snoc; [exact B|exact A].
Qed.
(* a word is as before the frame or stored by a pixel that was found to be background *)
Lemma run_words sched : (forall p, In p sched -> roi p) -> forall a, mem (run c size img rate rnd sched m) a = m a \/
  exists q, roi q /\ reading c (at_ (run c size img rate rnd sched m) q) = false /\ (required c <= good (at_ (run c size img rate rnd sched m) q))%nat /\ In (a, mem (run c size img rate rnd sched m) a) (stores c size img rate q (rnd q)).
Proof.
  induction sched as [|q l IH] using rev_ind; intros I a; [left; reflexivity|]. rewrite run_snoc. specialize (IH (fun p Hp => I p (proj2 (in_app_iff l [q] p) (or_introl Hp)))). set (w := run c size img rate rnd l m) in *.
  assert (K : mem (step c size img rate rnd w q) a = mem w a \/ (roi q /\ reading c (at_ w q) = false /\ (required c <= good (at_ w q))%nat /\ In (a, mem (step c size img rate rnd w q) a) (stores c size img rate q (rnd q)))).
  { unfold step. destruct (reading c (at_ w q)) eqn:R; [left; reflexivity|]. destruct (Nat.ltb_spec (good (at_ w q)) (required c)); [left; reflexivity|]. destruct (nth_error (stores c size img rate q (rnd q)) (stored (at_ w q))) as [[a' v]|] eqn:E; [|left; reflexivity].
    cbn [mem]. destruct (Z.eqb_spec a a') as [->|]; [|left; reflexivity]. right. split; [apply I, in_app_iff; right; left; reflexivity|]. split; [reflexivity|]. split; [assumption|]. apply nth_error_In in E. exact E. }
  destruct K as [K|(A & B & C & D)].
  - rewrite K. destruct (IH a) as [E|(r & A & B & C & D)]; [left; exact E|]. right. exists r. destruct (step_done w q r B) as (X & Y). rewrite Y. tauto.
  - right. exists q. destruct (step_done w q q B) as (X & Y). rewrite Y. tauto.
Qed.
Lemma run_consistent sched p (V : bool -> nat -> Z -> Z -> Prop) g : in_image size p -> (forall s b d, (s < samples c)%nat -> (forall k, compared c k -> V false s k (b k)) -> (forall k, compared c k -> V true s k (d k)) -> good_sample c size img p b d = g s) ->
  (forall l l', sched = l ++ l' -> reading c (at_ (run c size img rate rnd l m) p) = true -> forall t s k, (s < samples c)%nat -> compared c k -> V t s k (mem (run c size img rate rnd l m) (addr p t s k))) ->
  consistent V g (at_ (run c size img rate rnd sched m) p).
Proof.
  intros PI G. induction sched as [|q l IH] using rev_ind; intro M; [apply fresh_consistent|]. rewrite run_snoc. apply step_consistent; [exact PI|exact G| |].
  - apply (M l [q] eq_refl).
  - apply IH. intros l1 l2 E. apply (M l1 (l2 ++ [q])). rewrite E, app_assoc. reflexivity.
Qed.
End Frame.
(* while a pixel reads, its words are those of the last frame if its neighbours are foreground *)
Lemma quiet (roi : Z * Z -> Prop) img m rate rnd sched p : (forall q, roi q -> inner size q) -> (forall q, In q sched -> roi q) -> in_image size p ->
  (forall q, roi q -> q <> p -> within 1 p q -> (good (at_ (run c size img rate rnd sched m) q) < required c)%nat) ->
  forall l l', sched = l ++ l' -> reading c (at_ (run c size img rate rnd l m) p) = true -> forall t s k, (s < samples c)%nat -> compared c k -> mem (run c size img rate rnd l m) (addr p t s k) = m (addr p t s k).
Proof.
  intros RI SI PI NB l l' -> R t s k S K. destruct (run_words roi img m rate rnd l (fun q Q => SI q (proj2 (in_app_iff _ _ _) (or_introl Q))) (addr p t s k)) as [E|(q & Q & RQ & GQ & ST)]; [exact E|]. exfalso.
  destruct (stores_in _ _ _ _ _ _ (RI q Q) ST) as (p' & t' & s' & k' & P' & W & S' & K' & E & _). destruct (addr_inj p t s k p' t' s' k' PI P' S S' (compared_channel k K) K' E) as (<- & _).
  destruct (place_dec q p) as [->|N]; [congruence|]. specialize (NB q Q N W). rewrite (run_done img m rate rnd l' l q RQ) in NB. lia.
Qed.
Lemma frame_decision (roi : Z * Z -> Prop) img m mask m' p : (forall q, roi q -> inner size q) -> frame c size roi img m mask m' -> roi p ->
  (forall q, roi q -> q <> p -> within 1 p q -> mask q = true) -> (forall s ch, (s < samples c)%nat -> compared c ch -> 0 <= textures_of c size m p s ch < 2 ^ 16) ->
  (mask p = false <-> at_least (required c) (fun s => similar n (colour_threshold c) (texture_threshold c) (lut_of c) size img p (colours_of c size m p s) (textures_of c size m p s)) (seq 0 (samples c))).
Proof.
  intros RI (rate & rnd & sched & RT & SI & FN & -> & MK) P NB TX. rewrite (MK p P). pose proof (inner_image size p (RI p P)) as PI. unfold foreground. rewrite Nat.ltb_ge.
  set (g := fun s => good_sample c size img p (fun k => m (addr p false s k)) (fun k => m (addr p true s k))).
  assert (C : consistent (fun t s k v => v = m (addr p t s k)) g (at_ (run c size img rate rnd sched m) p)).
  { apply run_consistent; [exact PI| |].
    - intros s b d S B D. apply good_ext; [exact B|exact D].
    - apply (quiet roi); try assumption. intros q Q N W. specialize (NB q Q N W). rewrite (MK q Q) in NB. apply Nat.ltb_lt in NB. exact NB. }
  destruct (FN p P) as (R & _). pose proof (verdict img p _ _ _ C R) as VD.
  rewrite (at_least_filter g). 2: { intros s S. apply in_seq in S. unfold g. rewrite good_similar; [|apply RI, P|].
    - unfold colours_of, textures_of. split; intro H.
      + eapply similar_ext; [| |exact H]; intros; cbv beta; rewrite ?host_colour_addr, ?host_texture_addr; reflexivity.
      + eapply similar_ext; [| |exact H]; intros; cbv beta; rewrite ?host_colour_addr, ?host_texture_addr; reflexivity.
    - intros k K. specialize (TX s (swap c k) ltac:(lia) (swap_compared k K)). unfold textures_of in TX. rewrite swap_swap in TX by (apply compared_channel, K). rewrite host_texture_addr in TX. exact TX. }
  lia.
Qed.
(* what is kept *)
Lemma frame_words (roi : Z * Z -> Prop) img m mask m' : (forall q, roi q -> inner size q) -> frame c size roi img m mask m' -> forall a, m' a = m a \/
  exists q p t s ch, roi q /\ mask q = false /\ in_image size p /\ within 1 p q /\ (s < samples c)%nat /\ 0 <= ch < n /\ a = addr p t s ch /\ m' a = stored_value img q t ch.
Proof.
  intros RI (rate & rnd & sched & RT & SI & FN & -> & MK) a. destruct (run_words roi img m rate rnd sched SI a) as [E|(q & Q & RQ & GQ & ST)]; [left; exact E|]. right.
  destruct (stores_in _ _ _ _ _ _ (RI q Q) ST) as (p & t & s & ch & P & W & S & CH & E & V). exists q, p, t, s, ch. split; [exact Q|]. split; [rewrite (MK q Q); apply Nat.ltb_ge, GQ|]. tauto.
Qed.

Lemma frame_provenance (roi : Z * Z -> Prop) img m mask m' p s ch : (forall q, roi q -> inner size q) -> frame c size roi img m mask m' -> in_image size p -> (s < samples c)%nat -> 0 <= ch < n ->
  (m' (host_colour c size p s ch) = m (host_colour c size p s ch) \/
   exists q, roi q /\ mask q = false /\ within 1 p q /\ m' (host_colour c size p s ch) = if ch =? 3 then 0 else value n size img q (swap c ch)) /\
  (m' (host_texture c size p s ch) = m (host_texture c size p s ch) \/
   exists q, roi q /\ mask q = false /\ within 1 p q /\ if ch =? 3 then m' (host_texture c size p s ch) = 0
     else is_descriptor (around n size img q (swap c ch)) (value n size img q (swap c ch)) (lut_of c (value n size img q (swap c ch))) (m' (host_texture c size p s ch))).
Proof.
  intros RI FR P S C. rewrite host_colour_addr, host_texture_addr. split.
  - destruct (frame_words roi img m mask m' RI FR (addr p false s ch)) as [E|(q & p' & t' & s' & ch' & Q & MQ & P' & W & S' & C' & E & V)]; [left; exact E|right]. destruct (addr_inj p false s ch p' t' s' ch' P P' S S' C C' E) as (<- & <- & <- & <-).
    exists q. split; [exact Q|]. split; [exact MQ|]. split; [exact W|]. rewrite V. unfold stored_value. rewrite (texel_value img q ch (inner_image size q (RI q Q))). destruct (Z.eqb_spec ch 3); [|rewrite andb_false_r; reflexivity]. destruct (Z.eqb_spec n 4) as [|X]; [reflexivity|]. destruct channels_cases; lia.
  - destruct (frame_words roi img m mask m' RI FR (addr p true s ch)) as [E|(q & p' & t' & s' & ch' & Q & MQ & P' & W & S' & C' & E & V)]; [left; exact E|right]. destruct (addr_inj p true s ch p' t' s' ch' P P' S S' C C' E) as (<- & <- & <- & <-).
    exists q. split; [exact Q|]. split; [exact MQ|]. split; [exact W|]. rewrite V. unfold stored_value. rewrite (texel_value img q ch (inner_image size q (RI q Q))). destruct (Z.eqb_spec ch 3).
    + destruct (Z.eqb_spec n 4) as [|X]; [reflexivity|]. destruct channels_cases; lia.
    + rewrite andb_false_r. apply lbsp_descriptor, RI, Q.
Qed.
Lemma frame_elsewhere (roi : Z * Z -> Prop) img m mask m' a : (forall q, roi q -> inner size q) -> frame c size roi img m mask m' -> (forall p, in_image size p -> ~ owns c size p a) -> m' a = m a.
Proof.
  intros RI FR N. destruct (frame_words roi img m mask m' RI FR a) as [E|(q & p & t & s & ch & _ & _ & P & _ & S & C & E & _)]; [exact E|]. exfalso. apply (N p P). exists s, ch. split; [exact S|]. split; [exact C|]. rewrite host_colour_addr, host_texture_addr. destruct t; tauto.
Qed.
Lemma frame_all_foreground (roi : Z * Z -> Prop) img m mask m' a : (forall q, roi q -> inner size q) -> frame c size roi img m mask m' -> (forall q, roi q -> mask q = true) -> m' a = m a.
Proof. intros RI FR A. destruct (frame_words roi img m mask m' RI FR a) as [E|(q & p & t & s & ch & Q & M & _)]; [exact E|]. rewrite (A q Q) in M. discriminate. Qed.

(* ------------------------------------------------------------------ uniform scenes *)
Lemma nth_error_map_in {A B} (f : A -> B) l k v : nth_error (map f l) k = Some v -> exists a, In a l /\ v = f a.
Proof. intro E. apply nth_error_In, in_map_iff in E. destruct E as (a & E & I). exists a. auto. Qed.
Lemma around_uniform img tint q ch : uniform n size tint img -> inner size q -> 0 <= ch < n -> forall k v, nth_error (around n size img q ch) k = Some v -> v = tint ch.
Proof. intros U Q C k v E. apply nth_error_map_in in E. destruct E as (o & O & ->). apply U; [apply inner_shift; assumption|exact C]. Qed.
Lemma near_descriptor vals ref thr x : (forall k v, nth_error vals k = Some v -> v = x) -> Z.abs (x - ref) <= thr -> is_descriptor vals ref thr 0.
Proof. intros U T. split; [lia|]. intros k v E. rewrite Z.testbit_0_l, (U k v E). split; [discriminate|lia]. Qed.
Lemma far_descriptor vals ref thr : length vals = 16%nat -> (forall k v, nth_error vals k = Some v -> thr < Z.abs (v - ref)) -> is_descriptor vals ref thr 65535.
Proof.
  intros L U. split; [cbn; lia|]. intros k v E. assert (K : (k < 16)%nat) by (rewrite <- L; apply nth_error_Some; congruence). split; [intros _; exact (U k v E)|]. intros _. change 65535 with (Z.ones 16). apply Z.ones_spec_low. lia.
Qed.
Lemma around_length img q ch : length (around n size img q ch) = 16%nat. Proof. reflexivity. Qed.
Lemma texture_uniform img tint q k : uniform n size tint img -> inner size q -> compared c k -> 0 <= lut_of c (tint (swap c k)) -> stored_value img q true k = 0 /\ stored_value img q false k = tint (swap c k).
Proof.
  intros U Q K T. assert (KL : In k (lanes c)) by (apply lanes_compared, K). pose proof (inner_image size q Q) as QI. assert (TX : texel c size img q k = tint (swap c k)) by (rewrite texel_value by exact QI; apply U; [exact QI|apply swap_range, compared_channel, K]).
  rewrite !stored_lane by exact KL. rewrite TX. split; [|reflexivity]. apply (descriptor_unique (around n size img q (swap c k)) (tint (swap c k)) (lut_of c (tint (swap c k)))); [reflexivity|apply lbsp_descriptor, Q|].
  apply (near_descriptor _ _ _ (tint (swap c k))); [apply around_uniform; [exact U|exact Q|apply swap_range, compared_channel, K]|]. rewrite Z.sub_diag. exact T.
Qed.
(* the words of a pixel of a uniform scene *)
Definition pure (tint : Z -> Z) (m : Z -> Z) (p : Z * Z) : Prop := forall t s k, (s < samples c)%nat -> compared c k -> m (addr p t s k) = if t then 0 else tint (swap c k).
Lemma pure_similar img tint p : uniform n size tint img -> inner size p -> (forall k, compared c k -> 0 <= lut_of c (tint k)) -> 0 <= colour_threshold c -> 0 <= texture_threshold c ->
  similar n (colour_threshold c) (texture_threshold c) (lut_of c) size img p tint (fun _ => 0).
Proof.
  intros U P L CT TT. pose proof (inner_image size p P) as PI.
  assert (A : forall ch, compared c ch -> Z.abs (value n size img p ch - tint ch) = 0 /\ mismatch (around n size img p ch) (tint ch) (lut_of c (tint ch)) 0 = 0).
  { intros ch C. rewrite (U p ch PI (compared_channel ch C)), Z.sub_diag. split; [reflexivity|]. apply mismatch_own; [reflexivity|]. apply (near_descriptor _ _ _ (tint ch)); [apply around_uniform; [exact U|exact P|apply compared_channel, C]|]. rewrite Z.sub_diag. apply L, C. }
  assert (D : forall x, 0 <= x -> 0 <= x / 2) by (intros x X; apply Z.div_pos; lia). unfold similar. destruct channels_cases as [E|E].
  - assert (C0 : compared c 0) by (unfold compared; rewrite E; cbn; lia). destruct (A 0 C0) as (X & Y). rewrite E in *. cbn [Z.eqb Pos.eqb]. rewrite X, Y. split; [apply D, CT|exact TT].
  - assert (CC : forall ch, 0 <= ch < 3 -> compared c ch) by (intros ch C; unfold compared; rewrite E; cbn; lia). destruct (A 0 (CC 0 ltac:(lia))) as (X0 & Y0). destruct (A 1 (CC 1 ltac:(lia))) as (X1 & Y1). destruct (A 2 (CC 2 ltac:(lia))) as (X2 & Y2).
    rewrite E in *. cbn [Z.eqb Pos.eqb]. rewrite X0, X1, X2, Y0, Y1, Y2. split; [|lia]. intros ch C. destruct (A ch (CC ch C)) as (X & Y). rewrite X, Y. split; apply D; lia.
Qed.
Lemma frame_pure (roi : Z * Z -> Prop) img m mask m' p tint : (forall q, roi q -> inner size q) -> frame c size roi img m mask m' -> roi p -> uniform n size tint img ->
  (forall k, compared c k -> 0 <= lut_of c (tint k)) -> 0 <= colour_threshold c -> 0 <= texture_threshold c -> (required c <= samples c)%nat -> pure tint m p -> mask p = false /\ pure tint m' p.
Proof.
  intros RI FR P U L CT TT RS PU. pose proof (inner_image size p (RI p P)) as PI.
  assert (SV : forall q t k, inner size q -> compared c k -> stored_value img q t k = if t then 0 else tint (swap c k)). { intros q t k Q K. destruct (texture_uniform img tint q k U Q K (L _ (swap_compared k K))) as (A & B). destruct t; assumption. }
  split.
  2: { intros t s k S K. destruct (frame_words roi img m mask m' RI FR (addr p t s k)) as [E|(q & p' & t' & s' & ch' & Q & MQ & P' & W & S' & C' & E & V)]; [rewrite E; apply PU; assumption|].
    destruct (addr_inj p t s k p' t' s' ch' PI P' S S' (compared_channel k K) C' E) as (<- & <- & <- & <-). rewrite V. apply SV; [apply RI, Q|exact K]. }
  destruct FR as (rate & rnd & sched & RT & SI & FN & -> & MK). rewrite (MK p P). unfold foreground. rewrite Nat.ltb_ge.
  assert (CO : consistent (fun t s k v => v = if t then 0 else tint (swap c k)) (fun _ => true) (at_ (run c size img rate rnd sched m) p)).
  { apply run_consistent; [exact PI| |].
    - intros s b d S B D. rewrite (good_ext img p b d (fun k => tint (swap c k)) (fun _ => 0) B D). apply good_similar; [apply RI, P|intros; lia|].
      eapply similar_ext; [| |apply (pure_similar img tint p U (RI p P) L CT TT)]; intros ch C; cbv beta; [|reflexivity]. rewrite swap_swap; [reflexivity|]. destruct channels_cases as [E|E]; rewrite E in *; cbn [Z.eqb Pos.eqb] in C; lia.
    - intros l l' -> _ t s k S K. destruct (run_words roi img m rate rnd l (fun q Q => SI q (proj2 (in_app_iff _ _ _) (or_introl Q))) (addr p t s k)) as [E|(q & Q & RQ & GQ & ST)]; [rewrite E; apply PU; assumption|].
      destruct (stores_in _ _ _ _ _ _ (RI q Q) ST) as (p' & t' & s' & k' & P' & W & S' & K' & E & V). destruct (addr_inj p t s k p' t' s' k' PI P' S S' (compared_channel k K) K' E) as (<- & <- & <- & <-). rewrite V. apply SV; [apply RI, Q|exact K]. }
  destruct (FN p P) as (R & _). pose proof (verdict img p _ _ _ CO R) as VD. replace (length (filter (fun _ : nat => true) (seq 0 (samples c)))) with (samples c) in VD; [lia|].
  clear VD. rewrite <- (seq_length (samples c) 0) at 1. f_equal. induction (seq 0 (samples c)) as [|x l IH]; [reflexivity|]. cbn. rewrite <- IH. reflexivity.
Qed.
Lemma frames_pure (roi : Z * Z -> Prop) l m m' p tint : (forall q, roi q -> inner size q) -> frames c size roi l m m' -> roi p -> (forall e, In e l -> uniform n size tint (fst e)) ->
  (forall k, compared c k -> 0 <= lut_of c (tint k)) -> 0 <= colour_threshold c -> 0 <= texture_threshold c -> (required c <= samples c)%nat -> pure tint m p -> (forall e, In e l -> snd e p = false) /\ pure tint m' p.
Proof.
  intros RI FR P U L CT TT RS. induction FR as [m|img mask l m m1 m2 F1 FR IH]; intro PU; [split; [intros e []|exact PU]|].
  destruct (frame_pure roi img m mask m1 p tint RI F1 P (U (img, mask) (or_introl eq_refl)) L CT TT RS PU) as (A & B). destruct (IH (fun e E => U e (or_intror E)) B) as (X & Y). split; [|exact Y]. intros e [<-|E]; [exact A|apply X, E].
Qed.

(* ------------------------------------------------------------------ the initial model *)
Lemma iter_opt_all {T A} (f : T -> A -> option T) (Q : A -> T -> Prop) (K : A -> T -> T -> Prop) : (forall l : list A, NoDup l ->
  (forall a st, In a l -> exists st', f st a = Some st' /\ Q a st' /\ K a st st') -> (forall a b st st', In a l -> In b l -> a <> b -> K a st st' -> Q b st -> Q b st') ->
  forall st, exists st', iter_opt f l st = Some st' /\ (forall a, In a l -> Q a st') /\ forall R : T -> T -> Prop, (forall x, R x x) -> (forall x y z, R x y -> R y z -> R x z) -> (forall a x y, In a l -> K a x y -> R x y) -> R st st').
Proof.
  induction l as [|a l IH]; intros ND ST KP st.
  - exists st. split; [reflexivity|]. split; [intros a []|auto].
  - inversion ND as [|? ? NI ND']; subst. destruct (ST a st (or_introl eq_refl)) as (st1 & E1 & Q1 & K1).
    destruct (IH ND' (fun b t B => ST b t (or_intror B)) (fun b d t t' B D => KP b d t t' (or_intror B) (or_intror D)) st1) as (st2 & E2 & Q2 & R2).
    exists st2. cbn [iter_opt]. rewrite E1. split; [exact E2|]. split.
    + intros b [<-|B]; [|apply Q2, B]. apply (R2 (fun x y => Q a x -> Q a y)); [auto|auto| |exact Q1]. intros b x y B KB. apply (KP b a x y (or_intror B) (or_introl eq_refl)); [intro; subst; contradiction|exact KB].
    + intros R RR RT RK. apply (RT _ st1); [apply (RK a); [left; reflexivity|exact K1]|]. apply R2; auto. intros b x y B. apply RK. right. exact B.
Qed.
Lemma write_all_in l : forall m a v, In a (map fst l) -> (forall v', In (a, v') l -> v' = v) -> write_all m l a = v.
Proof.
  induction l as [|[x y] l IH] using rev_ind; intros m a v I U; [destruct I|]. unfold write_all. rewrite fold_left_app. cbn [fold_left fst snd]. destruct (Z.eqb_spec a x) as [->|N].
  - apply U, in_app_iff. right. left. reflexivity.
  - apply IH; [|intros v' V; apply U, in_app_iff; left; exact V]. rewrite map_app, in_app_iff in I. destruct I as [I|[I|[]]]; [exact I|]. cbn in I. congruence.
Qed.
Lemma write_all_out l : forall m a, ~ In a (map fst l) -> write_all m l a = m a.
Proof.
  induction l as [|[x y] l IH]; intros m a I; [reflexivity|]. unfold write_all in *. cbn [fold_left fst snd]. rewrite IH by (intro; apply I; right; assumption). destruct (Z.eqb_spec a x) as [->|N]; [exfalso; apply I; left; reflexivity|reflexivity].
Qed.
(* sample s of pixel p was taken at q *)
Definition sampled (seen : Z -> Z) (p : Z * Z) (s : nat) (w : Z -> Z) (q : Z * Z) : Prop := forall ch, 0 <= ch < n ->
  w (addr p false s ch) = value n size seen q (swap c ch) /\
  is_descriptor (around n size seen q ch) (value n size seen q (swap c ch)) (lut_of c (value n size seen q (swap c ch))) (w (addr p true s ch)).
Definition chosen (p q : Z * Z) : Prop := inner size q /\ (inner size p -> within 3 p q).
Lemma sample_chosen r p : 0 <= r -> 5 <= fst size -> 5 <= snd size -> chosen p (getSamplePosition_7x7_std2 r p 2 size).
Proof.
  intros R W H. split; [|intro P; apply sample_inner; assumption]. assert (I : inside (getSamplePosition_7x7_std2 r p 2 size) 2 size) by (apply sample_inside; unfold room; lia). unfold inside in I. unfold inner. lia.
Qed.
Section Initial.
Variables (rnd : nat -> Z) (seen : Z -> Z).
Hypothesis RN : forall k, 0 <= rnd k.
Hypothesis BI : byte_image seen.
Hypothesis SZ : 5 <= fst size /\ 5 <= snd size.
Definition only_sample (p : Z * Z) (i : nat) (st st' : host) : Prop := forall a, (forall t ch, 0 <= ch < n -> a <> addr p t i ch) -> words st' a = words st a.
Lemma refresh_one_forced p st i mask : in_image size p -> (i < samples c)%nat ->
  exists st', refresh_one c size rnd true mask seen p st i = Some st' /\ (exists q, chosen p q /\ sampled seen p i (words st') q) /\ only_sample p i st st'.
Proof.
  intros P I. unfold refresh_one. set (q := getSamplePosition_7x7_std2 (rnd (used st)) p 2 size). assert (CQ : chosen p q) by (apply sample_chosen; [apply RN|apply SZ|apply SZ]). pose proof (proj1 CQ) as Q. rewrite (Nat.mod_small i) by exact I.
  assert (NP : 0 < channels c) by (destruct channels_cases; lia).
  set (v := fun ch => value n size seen q (swap c ch)). set (d := fun ch => match texture c (around n size seen q ch) (v ch) with Some e => e | None => 0 end).
  rewrite (all_map _ (fun ch => [(host_colour c size p i ch, v ch); (host_texture c size p i ch, d ch)])).
  2: { intros ch C. apply in_zrange in C. rewrite get_in by (apply value_range; first [apply F|apply NP|apply inner_image, Q|apply swap_range; lia]). cbn [bind]. change (seen (place size q * n + swap c ch)) with (v ch).
       rewrite (lookup_around c rnd) by first [assumption|apply F|lia]. cbn [bind]. destruct (texture_around c size (proj1 (proj2 F)) seen q ch (v ch) BI (BI _)) as (e & E & _). unfold d. rewrite E. reflexivity. }
  eexists. split; [reflexivity|]. cbn [words]. set (l := concat _).
  assert (IN : forall a x, In (a, x) l -> exists ch, 0 <= ch < n /\ ((a = addr p false i ch /\ x = v ch) \/ (a = addr p true i ch /\ x = d ch))).
  { intros a x H. unfold l in H. apply in_concat in H. destruct H as (l' & L & H). apply in_map_iff in L. destruct L as (ch & <- & C). apply in_zrange in C. rewrite host_colour_addr, host_texture_addr in H. exists ch. split; [lia|]. destruct H as [H|[H|[]]]; rewrite pair_equal_spec in H; destruct H as (<- & <-); tauto. }
  assert (ADD : forall t ch, 0 <= ch < n -> In (addr p t i ch, if t then d ch else v ch) l).
  { intros t ch C. unfold l. apply in_concat. exists [(host_colour c size p i ch, v ch); (host_texture c size p i ch, d ch)]. split; [apply in_map_iff; exists ch; split; [reflexivity|apply in_zrange; lia]|]. rewrite host_colour_addr, host_texture_addr. destruct t; cbn; tauto. }
  assert (VAL : forall t ch, 0 <= ch < n -> write_all (words st) l (addr p t i ch) = if t then d ch else v ch).
  { intros t ch C. apply write_all_in; [apply in_map_iff; eexists; split; [|apply (ADD t ch C)]; reflexivity|]. intros x X. apply IN in X. destruct X as (ch' & C' & [(E & ->)|(E & ->)]); destruct (addr_inj _ _ _ _ _ _ _ _ P P I I C C' E) as (_ & -> & _ & ->); reflexivity. }
  split.
  - exists q. split; [exact CQ|]. intros ch C. rewrite (VAL false ch C), (VAL true ch C). split; [reflexivity|]. unfold d. destruct (texture_around c size (proj1 (proj2 F)) seen q ch (v ch) BI (BI _)) as (e & E & D). rewrite E. exact D.
  - intros a A. cbn [words]. apply write_all_out. intro X. apply in_map_iff in X. destruct X as ([a' x] & <- & X). apply IN in X. destruct X as (ch & C & [(E & _)|(E & _)]); exact (A _ ch C E).
Qed.
Definition pixel_ok (p : Z * Z) (st : host) : Prop := forall i, (i < samples c)%nat -> exists q, chosen p q /\ sampled seen p i (words st) q.
Lemma sampled_ext p s w w' q : (forall t ch, 0 <= ch < n -> w' (addr p t s ch) = w (addr p t s ch)) -> sampled seen p s w q -> sampled seen p s w' q.
Proof. intros E H ch C. rewrite !E by exact C. apply H, C. Qed.
Lemma initialized_ok : exists st, initialized c size rnd seen = Some st /\ forall p, in_image size p -> pixel_ok p st.
Proof.
  unfold initialized, refresh.
  destruct (iter_opt_all (fun st yx => iter_opt (refresh_one c size rnd true (fun _ => false) seen (snd yx, fst yx)) (seq 0 (samples c)) st)
    (fun yx st => pixel_ok (snd yx, fst yx) st) (fun yx st st' => forall a, (forall t i ch, (i < samples c)%nat -> 0 <= ch < n -> a <> addr (snd yx, fst yx) t i ch) -> words st' a = words st a)
    (grid 0 (snd size) 0 (fst size)) (nodup_grid _ _ _ _)) with (st := {| words := fun _ : Z => 0; used := 0 |}) as (st & E & A & _).
  - intros [y x] st G. apply in_grid in G. cbn [fst snd] in *. assert (P : in_image size (x, y)) by (unfold in_image; cbn; lia).
    destruct (iter_opt_all (refresh_one c size rnd true (fun _ => false) seen (x, y)) (fun i st => exists q, chosen (x, y) q /\ sampled seen (x, y) i (words st) q) (fun i => only_sample (x, y) i) (seq 0 (samples c)) (seq_NoDup _ _)) with (st := st) as (st' & E & A & B).
    + intros i st0 I. apply in_seq in I. apply refresh_one_forced; [exact P|lia].
    + intros a b st0 st1 IA IB N K (q & C & SQ). apply in_seq in IA, IB. exists q. split; [exact C|]. apply (sampled_ext _ _ (words st0)); [|exact SQ]. intros t ch CH. apply K. intros t' ch' CH' X. apply addr_inj in X; try assumption; lia.
    + exists st'. split; [exact E|]. split; [intros i I; apply A, in_seq; lia|]. apply (B (fun st st' => forall a, (forall t i ch, (i < samples c)%nat -> 0 <= ch < n -> a <> addr (x, y) t i ch) -> words st' a = words st a)).
      * auto.
      * intros s1 s2 s3 H1 H2 a N. rewrite H2, H1 by exact N. reflexivity.
      * intros i s1 s2 I K a N. apply in_seq in I. apply K. intros t ch CH. apply N; [lia|exact CH].
  - intros [y x] [y' x'] st st' G G' N K OK i I. apply in_grid in G, G'. cbn [fst snd] in *. destruct (OK i I) as (q & C & SQ). exists q. split; [exact C|]. apply (sampled_ext _ _ (words st)); [|exact SQ]. intros t ch CH. apply K. intros t' i' ch' I' CH' X.
    apply addr_inj in X; try assumption; try (unfold in_image; cbn; lia). destruct X as (X & _). rewrite pair_equal_spec in X. destruct X; subst. apply N. reflexivity.
  - exists st. split; [exact E|]. intros [x y] P. unfold in_image in P. cbn [fst snd] in P. specialize (A (y, x)). cbn [fst snd] in A. apply A, in_grid. cbn [fst snd]. lia.
Qed.
End Initial.

Lemma within_shift p q o : within 3 p q -> In o pattern -> within 5 p (fst q + fst o, snd q + snd o).
Proof. intros (X & Y) O. unfold within. cbn [fst snd]. assert (-2 <= fst o <= 2 /\ -2 <= snd o <= 2) by (unfold pattern in O; cbn [In] in O; repeat (destruct O as [<-|O]; [cbn; lia|]); destruct O). lia. Qed.
Lemma initial_pure rnd seen st p tint : (forall k, 0 <= rnd k) -> byte_image seen -> 5 <= fst size -> 5 <= snd size -> initialized c size rnd seen = Some st -> inner size p ->
  (forall q ch, in_image size q -> within 5 p q -> 0 <= ch < n -> value n size seen q ch = tint ch) ->
  (forall k, compared c k -> Z.abs (tint k - tint (swap c k)) <= lut_of c (tint (swap c k))) -> pure tint (words st) p.
Proof.
  intros RN BI W H E P U GR t s k S K. destruct (initialized_ok rnd seen RN BI (conj W H)) as (st' & E' & A). rewrite E in E'. injection E' as <-. destruct (A p (inner_image size p P) s S) as (q & (Q & WQ) & SQ). specialize (WQ P). pose proof (compared_channel k K) as KN. destruct (SQ k KN) as (X & Y).
  assert (VQ : value n size seen q (swap c k) = tint (swap c k)). { apply U; [apply inner_image, Q| |apply swap_range, KN]. unfold within in *. lia. }
  rewrite VQ in *. destruct t; [|exact X]. apply (descriptor_unique _ _ _ _ _ (around_length seen q k) Y). apply (near_descriptor _ _ _ (tint k)); [|apply GR, K].
  intros i v V. apply nth_error_map_in in V. destruct V as (o & O & ->). apply U; [apply inner_shift; assumption|apply within_shift; assumption|exact KN].
Qed.
(* ------------------------------------------------------------------ coloured scenes *)
Section Coloured.
Variables (tint : Z -> Z) (k0 : Z).
Hypothesis N4 : n = 4.
Hypothesis K0 : k0 = 0 \/ k0 = 2.
Hypothesis TN : 0 <= tint k0.
Hypothesis GAP : lut_of c (tint (swap c k0)) < tint (swap c k0) - tint k0.
Hypothesis L0 : 0 <= lut_of c (tint (swap c k0)).
Hypothesis TT : texture_threshold c * 3 / 2 < 16.
Hypothesis RQ : (0 < required c)%nat.
Definition clash (t : bool) (s : nat) (k v : Z) : Prop := (k = k0 -> v = if t then 65535 else tint (swap c k0)) /\ (t = true -> 0 <= v < 2 ^ 16).
Definition clashing (m : Z -> Z) : Prop := forall p t s k, inner size p -> (s < samples c)%nat -> compared c k -> clash t s k (m (addr p t s k)).
Lemma k0_compared : compared c k0. Proof. unfold compared. rewrite N4. cbn. lia. Qed.
Lemma clash_bad img p s b d : uniform n size tint img -> inner size p -> (forall k, compared c k -> clash false s k (b k)) -> (forall k, compared c k -> clash true s k (d k)) -> good_sample c size img p b d = false.
Proof.
  intros U P B D. apply not_true_is_false. intro G. apply good_similar in G; [|exact P|intros k K; apply (D k K); reflexivity]. unfold similar in G. assert (N1 : (n =? 1) = false) by (rewrite N4; reflexivity). rewrite N1 in G. destruct G as (G & _).
  pose proof k0_compared as KC. destruct (G (swap c k0)) as (_ & T). { pose proof (swap_compared k0 KC) as S. unfold compared in S. rewrite N4 in S. exact S. }
  rewrite (swap_swap k0 (compared_channel k0 KC)) in T. rewrite (proj1 (B k0 KC) eq_refl), (proj1 (D k0 KC) eq_refl) in T.
  rewrite (mismatch_bits _ _ _ 0) in T; [|reflexivity|].
  - change (count _ _) with 16 in T. lia.
  - apply (near_descriptor _ _ _ (tint (swap c k0))); [apply around_uniform; [exact U|exact P|apply swap_range, compared_channel, KC]|]. rewrite Z.sub_diag. exact L0.
Qed.
Lemma clash_run img m rate rnd sched : uniform n size tint img -> clashing m -> (forall q, In q sched -> inner size q) ->
  (forall a, mem (run c size img rate rnd sched m) a = m a) /\ forall p, inner size p -> consistent clash (fun _ => false) (at_ (run c size img rate rnd sched m) p).
Proof.
  intros U CL. induction sched as [|q l IH] using rev_ind; intro SI; [split; [reflexivity|intros; apply fresh_consistent]|]. destruct (IH (fun r R => SI r (proj2 (in_app_iff _ _ _) (or_introl R)))) as (M & C). rewrite run_snoc. set (w := run c size img rate rnd l m) in *. split.
  - intro a. assert (Q : inner size q) by (apply SI, in_app_iff; right; left; reflexivity). destruct (C q Q) as (_ & _ & GD & _).
    assert (G0 : good (at_ w q) = 0%nat). { rewrite GD. clear. induction (seq 0 (read (at_ w q))) as [|x xs IHx]; [reflexivity|exact IHx]. }
    unfold step. destruct (reading c (at_ w q)); [apply M|]. rewrite G0, (proj2 (Nat.ltb_lt _ _) RQ). apply M.
  - intros p P. apply step_consistent; [apply inner_image, P| | |apply C, P].
    + intros s b d S B D. apply (clash_bad img p s); assumption.
    + intros _ t s k S K. rewrite M. apply CL; assumption.
Qed.
Lemma clash_frame img m mask m' : uniform n size tint img -> clashing m -> frame c size (inner size) img m mask m' -> (forall p, inner size p -> mask p = true) /\ forall a, m' a = m a.
Proof.
  intros U CL (rate & rnd & sched & RT & SI & FN & -> & MK). destruct (clash_run img m rate rnd sched U CL SI) as (M & C). split; [|exact M]. intros p P. rewrite (MK p P). unfold foreground. apply Nat.ltb_lt. destruct (C p P) as (_ & _ & GD & _). rewrite GD.
  replace (length (filter (fun _ : nat => false) (seq 0 (read (at_ (run c size img rate rnd sched m) p))))) with 0%nat; [exact RQ|]. clear. induction (seq 0 _) as [|x xs IHx]; [reflexivity|exact IHx].
Qed.
Lemma clash_frames l m m' : (forall e, In e l -> uniform n size tint (fst e)) -> clashing m -> frames c size (inner size) l m m' -> (forall e p, In e l -> inner size p -> snd e p = true) /\ forall a, m' a = m a.
Proof.
  intros U CL FR. induction FR as [m|img mask l m m1 m2 F1 FR IH]; [split; [intros e p []|reflexivity]|].
  destruct (clash_frame img m mask m1 (U (img, mask) (or_introl eq_refl)) CL F1) as (A & B). destruct IH as (X & Y); [intros e E; apply U; right; exact E|intros p t s k P S K; rewrite B; apply CL; assumption|].
  split; [intros e p [<-|E] P; [apply A, P|apply X; assumption]|]. intro a. rewrite Y. apply B.
Qed.
Lemma clash_initial rnd seen st : (forall k, 0 <= rnd k) -> byte_image seen -> 5 <= fst size -> 5 <= snd size -> initialized c size rnd seen = Some st ->
  (forall q ch, in_image size q -> 0 <= ch < n -> value n size seen q ch = if (2 <=? fst q) && (fst q <? fst size - 2) && (2 <=? snd q) && (snd q <? snd size - 2) then tint ch else 0) -> clashing (words st).
Proof.
  intros RN BI W H E U p t s k P S K. destruct (initialized_ok rnd seen RN BI (conj W H)) as (st' & E' & A). rewrite E in E'. injection E' as <-. destruct (A p (inner_image size p P) s S) as (q & (Q & _) & SQ). pose proof (compared_channel k K) as KN. destruct (SQ k KN) as (X & Y). split.
  - intros ->. assert (VQ : value n size seen q (swap c k0) = tint (swap c k0)).
    { rewrite U by first [apply inner_image, Q|apply swap_range, KN]. destruct Q as (Q1 & Q2). destruct (Z.leb_spec 2 (fst q)), (Z.ltb_spec (fst q) (fst size - 2)), (Z.leb_spec 2 (snd q)), (Z.ltb_spec (snd q) (snd size - 2)); cbn [andb]; try reflexivity; lia. }
    rewrite VQ in *. destruct t; [|exact X]. apply (descriptor_unique _ _ _ _ _ (around_length seen q k0) Y). apply far_descriptor; [reflexivity|]. intros i v V. apply nth_error_map_in in V. destruct V as (o & O & ->).
    rewrite U by first [apply inner_shift; assumption|exact KN]. match goal with |- context [if ?b then _ else _] => destruct b end; lia.
  - intros ->. exact (proj1 Y).
Qed.
End Coloured.
(* ------------------------------------------------------------------ refreshing, and the image *)
Lemma iter_none {T A} (f : T -> A -> option T) a : (forall st, f st a = None) -> forall l, In a l -> forall st, iter_opt f l st = None.
Proof. intros N. induction l as [|b l IH]; intros I st; [destruct I|]. cbn [iter_opt]. destruct I as [->|I]; [rewrite N; reflexivity|]. destruct (f st b); [apply IH, I|reflexivity]. Qed.
Lemma refresh_tall rnd mask seen start num st : fst size < snd size -> refresh c size rnd false mask seen start num st = None.
Proof.
  intro T. unfold refresh. destruct F as (_ & _ & W & H & _). apply (iter_none _ (fst size, 0)); [|apply in_grid; cbn; lia]. intro st'. cbn [fst snd]. unfold get, inside_buf. destruct (Z.ltb_spec (0 + fst size * snd size) (fst size * snd size)); [lia|]. rewrite andb_false_r. reflexivity.
Qed.
Lemma sum_bounds l lo hi : (forall x, In x l -> lo <= x <= hi) -> lo * Z.of_nat (length l) <= sum l <= hi * Z.of_nat (length l).
Proof. induction l as [|x l IH]; intro B; [cbn; lia|]. unfold sum in *. cbn [fold_right length]. specialize (IH (fun y Y => B y (or_intror Y))). specialize (B x (or_introl eq_refl)). lia. Qed.
Lemma background_bounds m p ch lo hi : (forall s, (s < samples c)%nat -> lo <= m (host_colour c size p s ch) <= hi) -> lo <= background c size m p ch <= hi.
Proof.
  intro B. unfold background. pose proof nb_pos as NP. pose proof (sum_bounds (map (fun s => m (host_colour c size p s ch)) (seq 0 (samples c))) lo hi) as S. rewrite map_length, seq_length in S. fold nb in S.
  destruct S as (S1 & S2); [intros x X; apply in_map_iff in X; destruct X as (s & <- & I); apply in_seq in I; apply B; lia|].
  split; [apply Z.div_le_lower_bound; [exact NP|unfold GpuLobster.nb in *; lia]|]. apply Z.lt_succ_r, Z.div_lt_upper_bound; [exact NP|unfold GpuLobster.nb in *; lia].
Qed.
Lemma pure_background tint m p ch : pure tint m p -> compared c ch -> background c size m p ch = tint (swap c ch).
Proof.
  intros PU C. assert (tint (swap c ch) <= background c size m p ch <= tint (swap c ch)); [|lia]. apply background_bounds. intros s S. rewrite host_colour_addr, (PU false s ch S C). lia.
Qed.

(* ------------------------------------------------------------------ every invocation ends *)
Section Ends.
Variables (img : Z -> Z) (rate : N) (rnd : Z * Z -> nat -> N).
Definition sane (p : Z * Z) (l : place_in) : Prop := (length (partial l) < 2 * length (lanes c))%nat /\ (read l <= samples c)%nat /\ (stored l <= length (stores c size img rate p (rnd p)))%nat.
Definition remaining (p : Z * Z) (l : place_in) : nat := (2 * length (lanes c) * (samples c - read l) - length (partial l)) + (length (stores c size img rate p (rnd p)) - stored l).
Definition ended (p : Z * Z) (l : place_in) : Prop := reading c l = false /\ ((good l < required c)%nat \/ stored l = length (stores c size img rate p (rnd p))).
Lemma step_other w p q : q <> p -> at_ (step c size img rate rnd w q) p = at_ w p.
Proof. intro N. unfold step. destruct (reading c (at_ w q)); [cbn [at_]; apply put_other; congruence|]. destruct (good (at_ w q) <? required c)%nat; [reflexivity|]. destruct (nth_error _ _) as [[a v]|]; [|reflexivity]. cbn [at_]. apply put_other. congruence. Qed.
Lemma step_progress w p : sane p (at_ w p) -> sane p (at_ (step c size img rate rnd w p) p) /\ ((remaining p (at_ (step c size img rate rnd w p) p) < remaining p (at_ w p))%nat \/ (ended p (at_ w p) /\ at_ (step c size img rate rnd w p) p = at_ w p)).
Proof.
  intros (L & R & ST). unfold step. set (l := at_ w p) in *. destruct (reading c l) eqn:E.
  - assert (RL : (read l < samples c)%nat) by (unfold reading in E; apply andb_true_iff in E; apply Nat.ltb_lt, E). cbn [at_]. rewrite put_same. set (v := mem w _). unfold sane, remaining. pose proof (app_length (partial l) [v]) as AL. cbn [length] in AL.
    destruct (Nat.ltb_spec (length (partial l ++ [v])) (2 * length (lanes c))) as [K|K]; cbn [partial read stored length]; split; try lia; left; rewrite ?AL; nia.
  - destruct (Nat.ltb_spec (good l) (required c)) as [G|G].
    + split; [repeat split; assumption|]. right. split; [split; [exact E|left; exact G]|reflexivity].
    + destruct (nth_error (stores c size img rate p (rnd p)) (stored l)) as [[a v]|] eqn:NE.
      * cbn [at_]. rewrite put_same. assert (SL : (stored l < length (stores c size img rate p (rnd p)))%nat) by (apply nth_error_Some; congruence). unfold sane, remaining. cbn [partial read stored]. split; [lia|]. left. lia.
      * apply nth_error_None in NE. split; [repeat split; assumption|]. right. split; [split; [exact E|right; lia]|reflexivity].
Qed.
Definition turns (p : Z * Z) (sched : list (Z * Z)) : nat := length (filter (fun q => (fst q =? fst p) && (snd q =? snd p)) sched).
Lemma remaining_ended p l : sane p l -> remaining p l = 0%nat -> ended p l.
Proof.
  intros (L & R & ST) Z. unfold remaining in Z. assert (RS : read l = samples c). { destruct (samples c - read l)%nat as [|x] eqn:X; [lia|]. exfalso. assert (2 * length (lanes c) * S x >= 2 * length (lanes c))%nat by nia. lia. } split; [unfold reading; rewrite RS, Nat.ltb_irrefl; reflexivity|right; lia].
Qed.
Lemma enough_turns sched : forall w p, sane p (at_ w p) -> (remaining p (at_ w p) <= turns p sched)%nat \/ ended p (at_ w p) -> ended p (at_ (fold_left (step c size img rate rnd) sched w) p).
Proof.
  induction sched as [|q l IH]; intros w p SA H; cbn [fold_left].
  - destruct H as [H|H]; [|exact H]. apply remaining_ended; [exact SA|]. unfold turns in H. cbn [filter length] in H. lia.
  - destruct (place_dec q p) as [->|N].
    + destruct (step_progress w p SA) as (SA' & PR). apply IH; [exact SA'|]. destruct PR as [PR|(EN & EQ)]; [|right; rewrite EQ; exact EN]. destruct H as [H|H].
      * left. unfold turns in H. cbn [filter] in H. rewrite !Z.eqb_refl in H. cbn [andb length] in H. unfold turns. lia.
      * exfalso. destruct H as (RD & H). revert PR. unfold step. rewrite RD. destruct (Nat.ltb_spec (good (at_ w p)) (required c)) as [G|G]; [lia|]. destruct H as [H|H]; [lia|]. rewrite H, (proj2 (nth_error_None _ _)) by lia. lia.
    + apply IH; rewrite (step_other w p q N); [exact SA|]. destruct H as [H|H]; [left|right; exact H]. unfold turns in *. cbn [filter] in H. destruct (Z.eqb_spec (fst q) (fst p)), (Z.eqb_spec (snd q) (snd p)); cbn [andb] in H; try exact H. exfalso. apply N. destruct p, q; cbn in *; congruence.
Qed.
Lemma run_ends sched m p : (2 * length (lanes c) * samples c + length (stores c size img rate p (rnd p)) <= turns p sched)%nat -> finished c size img rate rnd (run c size img rate rnd sched m) p.
Proof.
  intro T. apply (enough_turns sched {| mem := m; at_ := fun _ => fresh |} p).
  - unfold sane, fresh. cbn. pose proof lanes_pos. lia.
  - left. unfold remaining, fresh. cbn [partial read stored at_ length]. rewrite !Nat.sub_0_r. exact T.
Qed.
End Ends.
End Gpu.

Lemma layout c size p s ch : fits c size -> in_image size p -> (s < samples c)%nat -> 0 <= ch < channels c ->
  gpu_colour c (model_index size p) s ch = host_colour c size p s ch /\ gpu_texture c (model_index size p) s ch = host_texture c size p s ch /\
  0 <= host_colour c size p s ch < model_size c size /\ 0 <= host_texture c size p s ch < model_size c size /\
  forall p' s' ch', in_image size p' -> (s' < samples c)%nat -> 0 <= ch' < channels c ->
    host_colour c size p s ch <> host_texture c size p' s' ch' /\
    (host_colour c size p s ch = host_colour c size p' s' ch' -> p = p' /\ s = s' /\ ch = ch') /\
    (host_texture c size p s ch = host_texture c size p' s' ch' -> p = p' /\ s = s' /\ ch = ch').
Proof.
  intros F P S C. rewrite (gpu_colour_addr c size F) by exact P. rewrite (gpu_texture_addr c size F) by exact P. rewrite !host_colour_addr, !host_texture_addr. split; [reflexivity|]. split; [reflexivity|].
  split; [apply addr_range; assumption|]. split; [apply addr_range; assumption|]. intros p' s' ch' P' S' C'. rewrite !host_colour_addr, !host_texture_addr. pose proof (fun t t' => addr_inj c size F p t s ch p' t' s' ch' P P' S S' C C') as I. split; [|split].
  - intro E. destruct (I false true E) as (_ & X & _). discriminate.
  - intro E. destruct (I false false E) as (X & _ & Y & Z). tauto.
  - intro E. destruct (I true true E) as (X & _ & Y & Z). tauto.
Qed.
Lemma initial_samples c size rnd seen : fits c size -> (forall k, 0 <= rnd k) -> byte_image seen -> 5 <= fst size -> 5 <= snd size ->
  exists st, initialized c size rnd seen = Some st /\ forall p s, in_image size p -> (s < samples c)%nat -> exists q, inner size q /\ (inner size p -> within 3 p q) /\ forall ch, 0 <= ch < channels c ->
    words st (host_colour c size p s ch) = value (channels c) size seen q (swap c ch) /\
    is_descriptor (around (channels c) size seen q ch) (value (channels c) size seen q (swap c ch)) (lut_of c (value (channels c) size seen q (swap c ch))) (words st (host_texture c size p s ch)).
Proof.
  intros F RN BI W H. destruct (initialized_ok c size F rnd seen RN BI (conj W H)) as (st & E & A). exists st. split; [exact E|]. intros p s P S. destruct (A p P s S) as (q & (Q & WQ) & SQ). exists q. split; [exact Q|]. split; [exact WQ|]. intros ch C. rewrite host_colour_addr, host_texture_addr. apply SQ, C.
Qed.
Lemma static c size (roi : Z * Z -> Prop) rnd seen st tint l m' p : fits c size -> (forall k, 0 <= rnd k) -> byte_image seen -> 5 <= fst size -> 5 <= snd size ->
  (forall q, roi q -> inner size q) -> roi p -> 0 <= colour_threshold c -> 0 <= texture_threshold c -> (required c <= samples c)%nat -> (forall v, 0 <= lut_of c v) ->
  (forall k, compared c k -> Z.abs (tint k - tint (swap c k)) <= lut_of c (tint (swap c k))) ->
  (forall q ch, in_image size q -> within 5 p q -> 0 <= ch < channels c -> value (channels c) size seen q ch = tint ch) ->
  initialized c size rnd seen = Some st -> (forall e, In e l -> uniform (channels c) size tint (fst e)) -> GpuLobster.frames c size roi l (words st) m' ->
  (forall e, In e l -> snd e p = false) /\ forall ch, compared c ch -> background c size m' p ch = tint (swap c ch).
Proof.
  intros F RN BI W H RI P CT TT RS L GR U E UF FR. pose proof (initial_pure c size F rnd seen st p tint RN BI W H E (RI p P) U GR) as PU.
  destruct (frames_pure c size F roi l (words st) m' p tint RI FR P UF (fun k _ => L _) CT TT RS PU) as (A & B). split; [exact A|]. intros ch C. apply pure_background; assumption.
Qed.
Lemma coloured c size rnd seen st tint k l m' : fits c size -> (forall k, 0 <= rnd k) -> byte_image seen -> 5 <= fst size -> 5 <= snd size ->
  channels c = 4 -> k = 0 \/ k = 2 -> 0 <= tint k -> 0 <= lut_of c (tint (2 - k)) < tint (2 - k) - tint k -> texture_threshold c * 3 / 2 < 16 -> (0 < required c)%nat ->
  (forall q ch, in_image size q -> 0 <= ch < 4 -> value 4 size seen q ch = if (2 <=? fst q) && (fst q <? fst size - 2) && (2 <=? snd q) && (snd q <? snd size - 2) then tint ch else 0) ->
  initialized c size rnd seen = Some st -> (forall e, In e l -> uniform 4 size tint (fst e)) -> GpuLobster.frames c size (inner size) l (words st) m' ->
  (forall e p, In e l -> inner size p -> snd e p = true) /\ forall a, m' a = words st a.
Proof.
  intros F RN BI W H N4 K TN GAP TT RQ U E UF FR. assert (SW : swap c k = 2 - k). { unfold swap. rewrite N4. destruct K as [-> | ->]; reflexivity. }
  rewrite <- SW in GAP. rewrite <- N4 in U, UF.
  apply (clash_frames c size F tint k) with (l := l); try assumption; try lia. apply (clash_initial c size F tint k) with (rnd := rnd) (seen := seen); try assumption; try lia.
Qed.
Lemma pairs : exists c size (roi : Z * Z -> Prop) img m mask m' p, fits c size /\ (forall q, roi q -> inner size q) /\ frame c size roi img m mask m' /\ roi p /\
  ~ ((m' (host_colour c size p 0 0) = m (host_colour c size p 0 0) /\ m' (host_texture c size p 0 0) = m (host_texture c size p 0 0)) \/
     exists q, roi q /\ m' (host_colour c size p 0 0) = value (channels c) size img q 0 /\
       is_descriptor (around (channels c) size img q 0) (value (channels c) size img q 0) (lut_of c (value (channels c) size img q 0)) (m' (host_texture c size p 0 0))).
Proof.
  set (c := {| channels := 1; colour_threshold := 30; texture_threshold := 4; samples := 2; required := 1; lut_of := fun v => v / 3; blur := fun _ _ => false |}).
  set (img := fun i => if i =? 14 then 200 else 110). set (m := fun a => if a mod 4 <? 2 then 100 else 0). set (rnd := fun (_ : Z * Z) (k : nat) => match k with 0%nat | 1%nat => 0%N | _ => 1%N end). set (p := (2, 2)).
  set (w := run c (5, 5) img 2 rnd [p; p; p; p] m).
  exists c, (5, 5), (fun q => q = p), img, m, (fun _ => false), (mem w), p. split; [repeat split; cbn; lia|]. split; [intros q ->; unfold inner, p; cbn [fst snd]; lia|]. split.
  - exists 2%N, rnd, [p; p; p; p]. split; [lia|]. split; [intros q [<-|[<-|[<-|[<-|[]]]]]; reflexivity|]. split; [|split; [reflexivity|intros q ->; vm_compute; reflexivity]]. intros q ->. split; [vm_compute; reflexivity|]. right. vm_compute. reflexivity.
  - split; [reflexivity|]. assert (EC : mem w (host_colour c (5, 5) p 0 0) = 110) by (vm_compute; reflexivity). assert (ET : mem w (host_texture c (5, 5) p 0 0) = 0) by (vm_compute; reflexivity). rewrite EC, ET. intros [(E & _)|(q & -> & _ & (_ & D))].
    + vm_compute in E. discriminate.
    + specialize (D 1%nat 200 eq_refl). destruct D as (_ & D). assert (X : lut_of c (value (channels c) (5, 5) img p 0) < Z.abs (200 - value (channels c) (5, 5) img p 0)) by (vm_compute; reflexivity). apply D in X. vm_compute in X. discriminate.
Qed.

Lemma mask_elsewhere : exists c size mask seen st p p', fits c size /\ refresh c size (fun _ => 0) false mask seen 0 (samples c) {| words := fun _ => 0; used := 0 |} = Some st /\ byte_image seen /\
  in_image size p /\ (forall q, in_image size q -> mask (place size q) = true <-> q = p) /\ words st (host_colour c size p 0 0) = 200 /\
  in_image size p' /\ p' <> p /\ words st (host_colour c size p' 0 0) = 0.
Proof.
  set (c := {| channels := 1; colour_threshold := 30; texture_threshold := 4; samples := 1; required := 1; lut_of := fun v => v / 3; blur := fun _ _ => false |}).
  set (r := refresh c (6, 5) (fun _ => 0) false (fun i => i =? 6) (fun _ => 200) 0 (samples c) {| words := fun _ => 0; used := 0 |}).
  assert (E : match r with Some st => map (words st) [host_colour c (6, 5) (0, 1) 0 0; host_colour c (6, 5) (1, 1) 0 0] | None => [] end = [200; 0]) by (vm_compute; reflexivity).
  exists c, (6, 5), (fun i => i =? 6), (fun _ => 200). fold r. destruct r as [st|]; [|discriminate]. injection E as E1 E2. exists st, (0, 1), (1, 1).
  split; [repeat split; cbn; lia|]. split; [reflexivity|]. split; [intro; cbn; lia|]. split; [unfold in_image; cbn [fst snd]; lia|]. split; [|split; [exact E1|split; [unfold in_image; cbn [fst snd]; lia|split; [discriminate|exact E2]]]].
  intros [x y] Q. unfold in_image in Q. cbn [fst snd] in Q. unfold place. cbn [fst snd]. rewrite Z.eqb_eq, pair_equal_spec. lia.
Qed.
