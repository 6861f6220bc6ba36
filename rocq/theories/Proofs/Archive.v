From Coq Require Import ZArith List Bool Lia Znumtheory.
From Verif Require Import Model.Simd Proofs.Simd Model.Archive Spec.Archive.
Import ListNotations.
Open Scope Z_scope.

Lemma unle_len n x : length (unle n x) = n.
Proof. revert x; induction n as [|n IH]; intro x; cbn [unle length]; auto. Qed.
Lemma depth_range d : 0 <= d -> 0 < depth_bytes d <= 8.
Proof. intros _. unfold depth_bytes. generalize (Z.to_nat d) as n. intro n. do 8 (destruct n as [|n]; [ cbn; lia |]). destruct n; cbn; lia. Qed.
Lemma esz_pos t : 0 < esz t.
Proof.
  unfold esz. pose proof (Z.mod_pos_bound (t / 8) 512 ltac:(lia)). pose proof (Z.mod_pos_bound t 8 ltac:(lia)).
  pose proof (depth_range (t mod 8) ltac:(lia)). nia.
Qed.
Lemma esz_small t : esz t <= 4096.
Proof.
  unfold esz. pose proof (Z.mod_pos_bound (t / 8) 512 ltac:(lia)). pose proof (Z.mod_pos_bound t 8 ltac:(lia)).
  pose proof (depth_range (t mod 8) ltac:(lia)). nia.
Qed.
Lemma prod_pos l : Forall (fun d => 0 < d < 2 ^ 31) l -> 0 < prod l.
Proof. induction 1; cbn [prod fold_right]; [ lia |]. unfold prod in IHForall. nia. Qed.
Lemma signed32_small x : - 2 ^ 31 <= x < 2 ^ 31 -> signed32 x = x.
Proof.
  intro H. unfold signed32. destruct (Z.ltb_spec (x mod 2 ^ 32) (2 ^ 31)).
  - destruct (Z.lt_ge_cases x 0).
    + assert (x mod 2 ^ 32 = x + 2 ^ 32). { symmetry. apply (Zmod_unique _ _ (-1)); lia. } lia.
    + apply Z.mod_small. lia.
  - destruct (Z.lt_ge_cases x 0).
    + assert (x mod 2 ^ 32 = x + 2 ^ 32). { symmetry. apply (Zmod_unique _ _ (-1)); lia. } lia.
    + rewrite (Z.mod_small x) in * by lia. lia.
Qed.
Lemma s32 x : - 2 ^ 31 <= x < 2 ^ 31 -> signed32 (le (unle 4 x)) = x.
Proof. intro H. rewrite le_unle. change (256 ^ Z.of_nat 4) with (2 ^ 32). rewrite signed32_mod. now apply signed32_small. Qed.
Lemma u64 x : 0 <= x < 2 ^ 64 -> le (unle 8 x) = x.
Proof. intro H. rewrite le_unle. change (256 ^ Z.of_nat 8) with (2 ^ 64). now apply Z.mod_small. Qed.

(** reading a prefix cut at k of a ++ r *)
Lemma get_cut n a r k : length a = n ->
  get n (firstn k (a ++ r), true) = if Nat.ltb k n then (firstn k a, ([], false)) else (a, (firstn (k - n) r, true)).
Proof.
  intro L. unfold get. rewrite firstn_app, L. destruct (Nat.ltb_spec k n) as [H|H].
  - replace (k - n)%nat with O by lia. rewrite firstn_O, app_nil_r.
    destruct (Nat.ltb_spec (length (firstn k a)) n) as [_|F]; auto. rewrite firstn_length in F. lia.
  - rewrite (firstn_all2 a) by lia. destruct (Nat.ltb_spec (length (a ++ firstn (k - n) r)) n) as [F|_].
    + rewrite app_length in F. lia.
    + f_equal; [| f_equal].
      * rewrite firstn_app, L, Nat.sub_diag, firstn_O, app_nil_r. apply firstn_all2. lia.
      * rewrite skipn_app, L, Nat.sub_diag. rewrite skipn_all2 by lia. reflexivity.
Qed.
Lemma get_app n a r : length a = n -> get n (a ++ r, true) = (a, (r, true)).
Proof.
  intro L. pose proof (get_cut n a r (length (a ++ r)) L) as H. rewrite firstn_all in H.
  rewrite app_length in H. destruct (Nat.ltb_spec (length a + length r) n) as [F|_]; [ lia |].
  rewrite H. rewrite firstn_all2 by lia. reflexivity.
Qed.
Lemma get_fail n r : get n (r, false) = ([], (r, false)).
Proof. reflexivity. Qed.

Lemma get_sizes_app l r : Forall (fun d => 0 < d < 2 ^ 31) l -> get_sizes (length l) (flat_map (unle 4) l ++ r, true) = (l, (r, true)).
Proof.
  induction 1 as [|d l Hd Hl IH]; cbn [length get_sizes flat_map]; auto.
  rewrite <- app_assoc, get_app by apply unle_len. rewrite IH. rewrite s32 by lia. reflexivity.
Qed.
Lemma get_sizes_fail k r : exists l, get_sizes k (r, false) = (l, (r, false)) /\ forall x, In x l -> x = 0.
Proof.
  induction k as [|k [l [E H]]]; cbn [get_sizes].
  - exists []. split; auto. intros x [].
  - rewrite get_fail, E. exists (signed32 (le []) :: l). split; auto. intros x [<-|I]; auto.
Qed.
Lemma get_sizes_cut l r k : Forall (fun d => 0 < d < 2 ^ 31) l ->
  exists l', get_sizes (length l) (firstn k (flat_map (unle 4) l ++ r), true) =
   (l', if Nat.ltb k (4 * length l) then ([], false) else (firstn (k - 4 * length l) r, true)) /\
   (Nat.ltb k (4 * length l) = false -> l' = l).
Proof.
  intro W. revert k. induction W as [|d l Hd Hl IH]; intro k; cbn [length get_sizes flat_map].
  - exists []. split; auto. cbn [app]. replace (k - 4 * 0)%nat with k by lia. destruct (Nat.ltb_spec k (4 * 0)); [ lia | reflexivity ].
  - rewrite <- app_assoc. rewrite get_cut by apply unle_len. destruct (Nat.ltb_spec k 4) as [H|H].
    + destruct (get_sizes_fail (length l) []) as [l' [E _]]. rewrite E. eexists. split.
      * destruct (Nat.ltb_spec k (4 * S (length l))); [ reflexivity | lia ].
      * intro F. apply Nat.ltb_ge in F. lia.
    + destruct (IH (k - 4)%nat) as [l' [E F]]. rewrite E. eexists. split.
      * destruct (Nat.ltb_spec (k - 4) (4 * length l)), (Nat.ltb_spec k (4 * S (length l))); try lia; [ reflexivity |].
        replace (k - 4 - 4 * length l)%nat with (k - 4 * S (length l))%nat by lia. reflexivity.
      * intro G. apply Nat.ltb_ge in G. rewrite F by (apply Nat.ltb_ge; lia). rewrite s32 by lia. reflexivity.
Qed.

Lemma wf_total m : wf_mat m -> ntotal (dims m) = prod (dims m).
Proof. intros (_ & L & _). unfold ntotal. destruct (dims m); auto. cbn in L. lia. Qed.
Lemma wf_norm (l : list Z) : (2 <= length l)%nat -> match l with [a] => [a; 1] | _ => l end = l.
Proof. destruct l as [|a [|b l]]; cbn [length]; auto; lia. Qed.
Lemma wf_nonneg l : Forall (fun d => 0 < d < 2 ^ 31) l -> forallb (fun x => 0 <=? x) l = true.
Proof. intro H. apply forallb_forall. intros x I. rewrite Forall_forall in H. specialize (H x I). apply Z.leb_le. lia. Qed.
Lemma prod64 m : wf_mat m -> 0 < prod (dims m) < 2 ^ 63.
Proof. intros (_ & _ & W & _ & _ & B). pose proof (prod_pos _ W). pose proof (esz_pos (ty m)). nia. Qed.

Lemma header_len m : length (header m) = (24 + 4 * length (dims m))%nat.
Proof.
  unfold header. rewrite !app_length, !unle_len.
  assert (F : forall l, length (flat_map (unle 4) l) = (4 * length l)%nat).
  { induction l as [|a l IH]; auto. cbn [flat_map]. rewrite app_length, unle_len, IH. cbn [length]. lia. }
  rewrite F. lia.
Qed.
Lemma parse_cut m tail k : wf_mat m ->
  match parse (firstn k (header m ++ tail)) with
  | PUninit => (k < 24)%nat
  | PThrow => (24 <= k < 24 + 4 * length (dims m))%nat
  | POk t l n s =>
    if Nat.ltb k (24 + 4 * length (dims m)) then snd s = false
    else t = ty m /\ l = dims m /\ n = esz (ty m) * prod (dims m) /\ s = (firstn (k - (24 + 4 * length (dims m))) tail, true)
  end.
Proof.
  intro W. pose proof (wf_total m W) as T. pose proof (prod64 m W) as P. destruct W as (Wt & Wl & Wd & Wb & Wc & Ws).
  unfold parse, header. rewrite <- !app_assoc. rewrite get_cut by apply unle_len.
  destruct (Nat.ltb_spec k 4) as [H1|H1]. { rewrite !get_fail. cbn [snd negb]. lia. }
  rewrite get_cut by apply unle_len. destruct (Nat.ltb_spec (k - 4) 8) as [H2|H2]. { rewrite !get_fail. cbn [snd negb]. lia. }
  rewrite get_cut by apply unle_len. destruct (Nat.ltb_spec (k - 4 - 8) 8) as [H3|H3]. { rewrite !get_fail. cbn [snd negb]. lia. }
  rewrite get_cut by apply unle_len. destruct (Nat.ltb_spec (k - 4 - 8 - 8) 4) as [H4|H4]. { cbn [snd negb]. lia. }
  cbn [snd negb]. rewrite s32 by lia.
  assert (C : (Z.of_nat (length (dims m)) <? 0) || (32 <? Z.of_nat (length (dims m))) = false)
    by (apply orb_false_iff; split; apply Z.ltb_ge; lia).
  rewrite C, Nat2Z.id. destruct (get_sizes_cut (dims m) tail (k - 4 - 8 - 8 - 4) Wd) as [l' [E F]]. rewrite E.
  destruct (Nat.ltb_spec (k - 4 - 8 - 8 - 4) (4 * length (dims m))) as [H5|H5].
  - destruct (forallb _ l'); [| lia ]. destruct (Nat.ltb_spec k (24 + 4 * length (dims m))); [ reflexivity | lia ].
  - rewrite (F eq_refl), wf_nonneg by assumption. destruct (Nat.ltb_spec k (24 + 4 * length (dims m))) as [G|G]; [ lia |].
    rewrite wf_norm by lia. rewrite s32 by lia. rewrite T, !u64 by (pose proof (esz_pos (ty m)); pose proof (esz_small (ty m)); lia).
    rewrite Z.mod_small by lia. rewrite Z.mod_small by (pose proof (esz_pos (ty m)); nia).
    repeat split; auto. f_equal. f_equal. lia.
Qed.
Lemma parse_full m tail : wf_mat m -> parse (header m ++ tail) = POk (ty m) (dims m) (esz (ty m) * prod (dims m)) (tail, true).
Proof.
  intro W. pose proof (parse_cut m tail (length (header m ++ tail)) W) as H. rewrite firstn_all in H.
  rewrite app_length, header_len in H. destruct (parse (header m ++ tail)) as [| |t l n s]; try lia.
  destruct (Nat.ltb_spec (24 + 4 * length (dims m) + length tail) (24 + 4 * length (dims m))); [ lia |].
  destruct H as (-> & -> & -> & ->). do 2 f_equal. apply firstn_all2. lia.
Qed.
Lemma data_all m : wf_mat m -> firstn (Z.to_nat (esz (ty m) * ntotal (dims m))) (bytes m) = bytes m.
Proof. intro W. rewrite (wf_total m W). destruct W as (_ & _ & _ & B & _). rewrite <- B, Nat2Z.id. apply firstn_all. Qed.

Lemma nonneg_total l : forallb (fun x => 0 <=? x) l = true -> 0 <= ntotal l /\ 0 <= ntotal (match l with [a] => [a; 1] | _ => l end).
Proof.
  intro H. rewrite forallb_forall in H.
  assert (P : 0 <= prod l).
  { unfold prod. induction l as [|a l IH]; cbn [fold_right]; [ lia |]. apply Z.mul_nonneg_nonneg; [ apply Z.leb_le, H; left; auto |].
    apply IH. intros x I. apply H. now right. }
  destruct l as [|a [|b l]]; cbn [ntotal]; auto with zarith.
Qed.
Lemma parse_nonneg f t l n s : parse f = POk t l n s -> 0 <= ntotal l.
Proof.
  unfold parse. destruct (get 4 (f, true)) as [b1 s1]. destruct (get 8 s1) as [b2 s2]. destruct (get 8 s2) as [b3 s3].
  destruct (get 4 s3) as [b4 s4]. destruct (negb (snd s4)); [ discriminate |].
  destruct (_ || _); [ discriminate |]. destruct (get_sizes _ s4) as [l0 s5].
  destruct (forallb _ l0) eqn:E; [| discriminate ]. intro H.
  assert (X : l = match l0 with [a] => [a; 1] | _ => l0 end) by congruence. subst l. now apply nonneg_total.
Qed.

Lemma nmat_eta m : Nmat (ty m) (dims m) (bytes m) = m. Proof. destruct m; reflexivity. Qed.
Lemma binary_roundtrip m : wf_mat m -> read_binary (write_binary m) = Loaded m 0.
Proof.
  intro W. unfold read_binary, write_binary. rewrite data_all, parse_full by assumption.
  pose proof (wf_total m W) as T. destruct W as (Wt & Wl & Wd & Wb & Wc & Ws).
  unfold read_raw, capacity. rewrite T, Wb. cbn [negb orb andb].
  rewrite (proj2 (Z.ltb_lt _ (2 ^ 63))) by lia. rewrite Z.min_id, Z.ltb_irrefl. rewrite (proj2 (Z.leb_gt _ _)) by lia. cbn [orb].
  rewrite <- Wb, Nat2Z.id, firstn_all, nmat_eta, Z.sub_diag. reflexivity.
Qed.
Lemma binary_injective a b : wf_mat a -> wf_mat b -> write_binary a = write_binary b -> a = b.
Proof. intros A B E. pose proof (binary_roundtrip a A) as H. rewrite E, binary_roundtrip in H by assumption. congruence. Qed.

Lemma prefix_firstn p f : strict_prefix p f -> exists k, (k < length f)%nat /\ p = firstn k f.
Proof.
  intros (s & N & ->). exists (length p). split.
  - rewrite app_length. destruct s; [ congruence | cbn; lia ].
  - rewrite firstn_app, Nat.sub_diag, firstn_O, app_nil_r, firstn_all. reflexivity.
Qed.
Lemma binary_truncated m p : wf_mat m -> strict_prefix p (write_binary m) -> read_binary p = Throws \/ (read_binary p = Uninit /\ (length p < 24)%nat).
Proof.
  intros W H. apply prefix_firstn in H. destruct H as (k & L & ->). unfold write_binary in *. rewrite data_all in * by assumption.
  rewrite app_length, header_len in L.
  assert (K : length (firstn k (header m ++ bytes m)) = k) by (rewrite firstn_length, app_length, header_len; lia).
  rewrite K. pose proof (parse_cut m (bytes m) k W) as P. unfold read_binary.
  destruct (parse (firstn k (header m ++ bytes m))) as [| |t l n s] eqn:Q; auto. left. apply parse_nonneg in Q.
  pose proof (wf_total m W) as T. destruct W as (Wt & Wl & Wd & Wb & Wc & Ws).
  destruct (Nat.ltb_spec k (24 + 4 * length (dims m))) as [H|H].
  - destruct s as [r ok]. cbn [snd] in P. subst ok. unfold read_raw. cbn [andb negb orb].
    destruct (Z.ltb_spec (capacity t l) 0) as [C|C]; auto. exfalso.
    unfold capacity in C; pose proof (esz_pos t); nia.
  - destruct P as (-> & -> & -> & ->). unfold read_raw, capacity. rewrite T, <- Wb. cbn [negb orb andb].
    rewrite (proj2 (Z.ltb_lt _ (2 ^ 63))) by lia. rewrite firstn_length.
    rewrite (proj2 (Z.ltb_ge _ _)) by lia. rewrite (proj2 (Z.leb_gt _ _)) by lia. rewrite (proj2 (Z.ltb_lt _ _)) by lia. reflexivity.
Qed.

(** the reader never overruns exactly when the counted bytes fit; general safety condition *)
Lemma binary_overrun_iff f : read_binary f = Overrun <->
  exists t l n r, parse f = POk t l n (r, true) /\ n < 2 ^ 63 /\ capacity t l < Z.min n (Z.of_nat (length r)).
Proof.
  unfold read_binary. split.
  - destruct (parse f) as [| |t l n [r ok]] eqn:Q; try discriminate. apply parse_nonneg in Q.
    unfold read_raw. destruct (Z.ltb_spec (capacity t l) (if ok && (n <? 2 ^ 63) then Z.min n (Z.of_nat (length r)) else 0)) as [H|H].
    + intros _. pose proof (esz_pos t). unfold capacity in H. destruct ok; cbn [andb] in H; [| nia ].
      destruct (Z.ltb_spec n (2 ^ 63)); [| nia ]. exists t, l, n, r. auto.
    + destruct (true && _); discriminate.
  - intros (t & l & n & r & -> & N & C). unfold read_raw. cbn [andb]. rewrite (proj2 (Z.ltb_lt n _)) by lia.
    rewrite (proj2 (Z.ltb_lt (capacity t l) _)) by lia. reflexivity.
Qed.

Lemma lz4_roundtrip comp decomp m f : lossless comp decomp -> wf_mat m ->
  write_lz4 comp m = Some f -> read_lz4 decomp f = Loaded m 0.
Proof.
  intros LL W H. unfold write_lz4 in H. rewrite data_all in H by assumption. rewrite (wf_total m W) in H.
  pose proof (wf_total m W) as T. pose proof (prod64 m W) as P. pose proof (esz_pos (ty m)) as E.
  destruct (Z.ltb_spec 0 (esz (ty m) * prod (dims m))) as [N|N]; [| nia ].
  destruct (Z.ltb_spec (esz (ty m) * prod (dims m)) (2 ^ 31 - 1)) as [S|S]; [| discriminate ].
  destruct (Z.leb_spec (Z.of_nat (length (comp (bytes m)))) (esz (ty m) * prod (dims m))) as [B|B]; [| discriminate ].
  assert (Hf : f = header m ++ unle 4 (Z.of_nat (length (comp (bytes m)))) ++
     (match comp (bytes m) with [] => bytes m | _ :: _ => comp (bytes m) end)) by congruence. subst f. clear H.
  unfold read_lz4. rewrite parse_full by assumption. cbn [snd negb]. rewrite T. rewrite (proj2 (Z.eqb_neq _ _)) by lia.
  rewrite get_app by apply unle_len. cbn [snd negb]. rewrite s32 by lia.
  rewrite (proj2 (Z.ltb_ge (Z.of_nat _) 0)) by lia. rewrite (proj2 (Z.ltb_ge _ (Z.of_nat _))) by lia. cbn [orb].
  destruct W as (Wt & Wl & Wd & Wb & Wc & Ws).
  destruct (comp (bytes m)) as [|c0 c] eqn:C.
  - cbn [length Z.of_nat Z.eqb]. unfold read_raw, capacity. rewrite T, Wb. cbn [andb].
    rewrite (proj2 (Z.ltb_lt _ (2 ^ 63))) by lia. rewrite Z.min_id, Z.ltb_irrefl, <- Wb, Nat2Z.id, firstn_all, nmat_eta, Z.sub_diag. reflexivity.
  - rewrite (proj2 (Z.eqb_neq (Z.of_nat (length (c0 :: c))) 0)) by (cbn [length]; lia).
    rewrite Nat2Z.id. pose proof (get_app _ (c0 :: c) [] eq_refl) as G. rewrite app_nil_r in G. rewrite G. cbn [snd negb].
    rewrite (proj2 (Z.leb_gt _ _)) by lia.
    rewrite <- C, <- Wb. rewrite LL by (rewrite C; discriminate). unfold capacity. rewrite T, <- Wb, Z.ltb_irrefl, Z.eqb_refl, nmat_eta, Z.sub_diag. reflexivity.
Qed.
(** the LZ4 writer accepts every matrix below 2 GiB *)
Lemma lz4_total comp m : bounded_codec comp -> wf_mat m -> esz (ty m) * prod (dims m) < 2 ^ 31 - 1 -> exists f, write_lz4 comp m = Some f.
Proof.
  intros BC W S. unfold write_lz4. rewrite data_all by assumption. rewrite (wf_total m W).
  destruct (0 <? _); [| eauto ]. rewrite (proj2 (Z.ltb_lt _ _) S).
  specialize (BC (bytes m)). destruct W as (Wt & Wl & Wd & Wb & Wc & Ws).
  rewrite (proj2 (Z.leb_le _ _)) by lia. eauto.
Qed.

(** views *)
Lemma flat_rows (mem : list Z) (o : nat) st n k : k = n -> (o + n * st <= length mem)%nat ->
  flat_map (fun i => firstn st (skipn (o + i * st) mem)) (seq 0 k) = firstn (n * st) (skipn o mem).
Proof.
  intros -> L. revert L. induction n as [|n IH]; intro L; auto.
  rewrite seq_S, flat_map_app. rewrite IH by lia. cbn [flat_map plus]. rewrite app_nil_r.
  replace (S n * st)%nat with (n * st + st)%nat by lia.
  assert (K : forall a b (l : list Z), firstn (a + b) l = firstn a l ++ firstn b (skipn a l)).
  { induction a as [|a IHa]; intros b l; auto. destruct l; cbn; [ now rewrite firstn_nil |]. f_equal. apply IHa. }
  rewrite K. f_equal. f_equal.
  assert (K2 : forall a b (l : list Z), skipn (a + b) l = skipn b (skipn a l)).
  { induction a as [|a IHa]; intros b l; auto. destruct l; cbn; [ now rewrite skipn_nil |]. apply IHa. }
  apply K2.
Qed.
Lemma view_cont v : wf_view v -> continuous v = true ->
  view_bytes v = firstn (Z.to_nat (vrows v * rowbytes v)) (skipn (Z.to_nat (voff v)) (vmem v)).
Proof.
  intros (Wt & Wr & Wc & Ws & Wo & Wm & Wb & Wz) C. unfold continuous in C. apply orb_true_iff in C.
  pose proof (esz_pos (vty v)) as E. unfold view_bytes, row_at. fold (rowbytes v) in Ws, Wm.
  assert (R : 0 <= rowbytes v) by (unfold rowbytes; nia).
  destruct (Z.eq_dec (vrows v) 1) as [R1|R1].
  - rewrite R1. change (Z.to_nat 1) with 1%nat. cbn [seq flat_map]. rewrite app_nil_r. f_equal; f_equal; lia.
  - destruct C as [C|C]; apply Z.eqb_eq in C; [ lia |].
    replace (Z.to_nat (vrows v * rowbytes v)) with (Z.to_nat (vrows v) * Z.to_nat (rowbytes v))%nat by (rewrite Z2Nat.inj_mul by lia; reflexivity).
    rewrite <- (flat_rows (vmem v) (Z.to_nat (voff v)) (Z.to_nat (rowbytes v)) (Z.to_nat (vrows v)) (Z.to_nat (vrows v)) eq_refl).
    + apply flat_map_ext. intro i. f_equal. f_equal. rewrite C. rewrite Z2Nat.inj_add by nia. rewrite Z2Nat.inj_mul by lia. rewrite Nat2Z.id. reflexivity.
    + rewrite C in Wm. rewrite <- Z2Nat.inj_mul, <- Z2Nat.inj_add by nia. apply Nat2Z.inj_le. rewrite Z2Nat.id by nia. nia.
Qed.
Lemma row_len v i : wf_view v -> (i < Z.to_nat (vrows v))%nat -> length (row_at v i) = Z.to_nat (rowbytes v).
Proof.
  intros (Wt & Wr & Wc & Ws & Wo & Wm & Wb & Wz) L. unfold row_at. fold (rowbytes v) in Ws, Wm. pose proof (esz_pos (vty v)).
  rewrite firstn_length, skipn_length. unfold rowbytes in *. nia.
Qed.
Lemma view_len v : wf_view v -> Z.of_nat (length (view_bytes v)) = vrows v * rowbytes v.
Proof.
  intro W. unfold view_bytes.
  assert (G : forall n, (n <= Z.to_nat (vrows v))%nat -> length (flat_map (row_at v) (seq 0 n)) = (n * Z.to_nat (rowbytes v))%nat).
  { induction n as [|n IH]; intro L; auto. rewrite seq_S, flat_map_app, app_length, IH by lia. cbn [flat_map plus]. rewrite app_nil_r.
    rewrite (row_len v n W) by lia. lia. }
  rewrite G by lia. destruct W as (Wt & Wr & Wc & Ws & Wo & Wm & Wb & Wz). pose proof (esz_pos (vty v)). unfold rowbytes. nia.
Qed.
Lemma forall_firstn {A} (P : A -> Prop) n l : Forall P l -> Forall P (firstn n l).
Proof. intro H. rewrite Forall_forall in *. intros x I. apply H. rewrite <- (firstn_skipn n l). apply in_or_app. now left. Qed.
Lemma forall_skipn {A} (P : A -> Prop) n l : Forall P l -> Forall P (skipn n l).
Proof. intro H. rewrite Forall_forall in *. intros x I. apply H. rewrite <- (firstn_skipn n l). apply in_or_app. now right. Qed.
Definition as_mat (v : view) : nmat := Nmat (vty v) [vrows v; vcols v] (view_bytes v).
Lemma wf_as_mat v : wf_view v -> wf_mat (as_mat v).
Proof.
  intro W. pose proof (view_len v W) as L. destruct W as (Wt & Wr & Wc & Ws & Wo & Wm & Wb & Wz).
  unfold wf_mat, as_mat. cbn [ty dims bytes length prod fold_right]. unfold rowbytes in L. repeat split; try lia.
  - repeat constructor; lia.
  - unfold view_bytes. rewrite Forall_forall. intros x I. apply in_flat_map in I. destruct I as (i & _ & I).
    assert (F : Forall (fun b => 0 <= b < 256) (row_at v i)) by (apply forall_firstn, forall_skipn; assumption).
    rewrite Forall_forall in F. now apply F.
Qed.
Lemma write_view_elems v : wf_view v -> write_view v = write_binary (as_mat v).
Proof.
  intro W. unfold write_view, write_binary, as_mat, header. cbn [ty dims bytes]. f_equal.
  destruct (continuous v) eqn:C; auto. rewrite (view_cont v W C). rewrite firstn_firstn. f_equal.
  cbn [ntotal prod fold_right]. unfold rowbytes. destruct W as (Wt & Wr & Wc & Ws & Wo & Wm & Wb & Wz). pose proof (esz_pos (vty v)). nia.
Qed.
Lemma view_roundtrip v : wf_view v -> read_binary (write_view v) = Loaded (as_mat v) 0.
Proof. intro W. rewrite write_view_elems by assumption. apply binary_roundtrip, wf_as_mat, W. Qed.

Definition set_mem (v : view) (mem : list Z) : view := View (vty v) (vrows v) (vcols v) (vstep v) (voff v) mem.
(** reading into a continuous matrix of the same type and size: the elements are those of the file and no other byte changes *)
Lemma into_continuous v m : wf_view v -> continuous v = true -> wf_mat m -> ty m = vty v -> dims m = [vrows v; vcols v] ->
  exists mem', read_into (write_binary m) v = InPlace (set_mem v mem') /\ view_bytes (set_mem v mem') = bytes m /\
    length mem' = length (vmem v) /\
    forall i, (i < Z.to_nat (voff v) \/ Z.to_nat (voff v + vrows v * rowbytes v) <= i)%nat -> nth_error mem' i = nth_error (vmem v) i.
Proof.
  intros W C M Et Ed. unfold read_into, write_binary. rewrite data_all, parse_full by assumption.
  rewrite Et, Ed, !Z.eqb_refl. cbn [andb]. pose proof W as W0. pose proof M as (Mt & Ml & Md & Mb & Mc & Ms).
  destruct W0 as (Wt & Wr & Wc & Ws & Wo & Wm & Wb & Wz). pose proof (esz_pos (vty v)) as E.
  rewrite Et, Ed in *. cbn [prod fold_right] in Mb, Ms. 
  assert (N : esz (vty v) * prod [vrows v; vcols v] = Z.of_nat (length (bytes m))) by (cbn [prod fold_right]; lia). rewrite N.
  assert (NR : Z.of_nat (length (bytes m)) = vrows v * rowbytes v) by (unfold rowbytes; lia).
  assert (FIT : voff v + vrows v * rowbytes v <= Z.of_nat (length (vmem v))).
  { unfold continuous in C. apply orb_true_iff in C. fold (rowbytes v) in *. destruct C as [C|C]; apply Z.eqb_eq in C.
    - rewrite C in *. lia.
    - rewrite C in Wm. lia. }
  rewrite (proj2 (Z.ltb_lt _ (2 ^ 63))) by lia. rewrite Z.min_id. rewrite (proj2 (Z.ltb_ge _ _)) by lia.
  rewrite (proj2 (Z.leb_gt _ _)) by lia. rewrite Z.ltb_irrefl. cbn [orb negb]. rewrite Nat2Z.id, firstn_all.
  set (mem' := store (Z.to_nat (voff v)) (bytes m) (vmem v)).
  assert (ML : length mem' = length (vmem v)).
  { unfold mem', store. rewrite !app_length, firstn_length, skipn_length. nia. }
  exists mem'. split; [ reflexivity |]. split; [| split; [ exact ML |]].
  - rewrite view_cont.
    + cbn [set_mem vrows rowbytes vcols vty voff vmem]. change (rowbytes (set_mem v mem')) with (rowbytes v). rewrite <- NR, Nat2Z.id.
      unfold mem', store. rewrite skipn_app. rewrite skipn_all2 by (rewrite firstn_length; lia). rewrite firstn_length.
      replace (Z.to_nat (voff v) - Nat.min (Z.to_nat (voff v)) (length (vmem v)))%nat with O by lia.
      cbn [app skipn]. rewrite firstn_app, Nat.sub_diag, firstn_O, app_nil_r. apply firstn_all.
    + unfold wf_view, set_mem. cbn [vty vrows vcols vstep voff vmem]. repeat split; try lia.
      unfold mem', store. apply Forall_app. split; [ now apply forall_firstn |]. apply Forall_app. split; [ assumption | now apply forall_skipn ].
    + exact C.
  - intros i [H|H]; unfold mem', store.
    + rewrite nth_error_app1 by (rewrite firstn_length; lia).
      revert H. generalize (Z.to_nat (voff v)) as o. generalize (vmem v) as l. clear. intros l o. revert l i.
      induction o as [|o IH]; intros l i H; [ lia |]. destruct l; auto. destruct i; auto. cbn [firstn nth_error]. apply IH. lia.
    + rewrite nth_error_app2 by (rewrite firstn_length; lia). rewrite firstn_length.
      rewrite nth_error_app2 by lia. 
      assert (K : forall o i (l : list Z), nth_error (skipn o l) i = nth_error l (o + i)).
      { induction o as [|o IHo]; intros j l; auto. destruct l; cbn; [ now destruct j |]. apply IHo. }
      rewrite K. f_equal. lia.
Qed.
(** plain text *)
Lemma scale_spec fuel p a : 0 < p -> 0 <= a -> a < 1000000 * p * 10 ^ Z.of_nat fuel ->
  exists j, 0 <= j /\ scale fuel p a = p * 10 ^ j /\ a < 1000000 * (p * 10 ^ j) /\ forall i, 0 <= i < j -> 1000000 * (p * 10 ^ i) <= a.
Proof.
  revert p. induction fuel as [|f IH]; intros p P A H.
  - exists 0. cbn [scale]. change (10 ^ Z.of_nat 0) with 1 in H. repeat split; try lia. all: intros; try lia.
  - cbn [scale]. destruct (Z.ltb_spec a (1000000 * p)) as [L|L].
    + exists 0. repeat split; lia.
    + destruct (IH (10 * p)) as (j & J & E & B & M); try lia.
      { rewrite Nat2Z.inj_succ, Z.pow_succ_r in H by lia. nia. }
      exists (j + 1). rewrite Z.pow_add_r by lia. change (10 ^ 1) with 10. repeat split; try lia.
      intros i I. destruct (Z.eq_dec i 0) as [->|NI]; [ lia |]. specialize (M (i - 1) ltac:(lia)).
      replace i with (i - 1 + 1) by lia. rewrite Z.pow_add_r by lia. change (10 ^ 1) with 10. lia.
Qed.
Lemma round_even_exact q p : 0 < p -> round_even (q * p) p = q.
Proof.
  intro P. unfold round_even. rewrite Z.div_mul by lia. rewrite Z.mod_mul by lia.
  rewrite (proj2 (Z.ltb_lt _ _)) by lia. reflexivity.
Qed.
Lemma round_even_range a p : 0 < p -> 0 <= a -> a / p <= round_even a p <= a / p + 1.
Proof. intros P A. unfold round_even. repeat match goal with |- context [if ?b then _ else _] => destruct b end; lia. Qed.
Lemma plain_exact_iff x : Z.abs x < 10 ^ 26 -> (plain x = x <-> six_digits x).
Proof.
  intro B. unfold plain. destruct (scale_spec 20 1 (Z.abs x)) as (j & J & E & H & M); try lia.
  rewrite E. rewrite Z.mul_1_l in *. assert (P : 0 < 10 ^ j) by (apply Z.pow_pos_nonneg; lia).
  split.
  - intro X. pose proof (round_even_range (Z.abs x) (10 ^ j) P ltac:(lia)) as R.
    assert (D : Z.abs x / 10 ^ j < 1000000) by (apply Z.div_lt_upper_bound; lia).
    assert (D0 : 0 <= Z.abs x / 10 ^ j) by (apply Z.div_pos; lia).
    set (r := round_even (Z.abs x) (10 ^ j)) in *. clearbody r.
    destruct (Z.eq_dec r 1000000) as [->|NR].
    + exists (Z.sgn x * 100000), (j + 1). rewrite Z.pow_add_r by lia. change (10 ^ 1) with 10. change (10 ^ 6) with 1000000.
      repeat split; lia.
    + exists (Z.sgn x * r), j. change (10 ^ 6) with 1000000. repeat split; lia.
  - intros (m & k & K & Mm & ->). change (10 ^ 6) with 1000000 in Mm.
    assert (Pk : 0 < 10 ^ k) by (apply Z.pow_pos_nonneg; lia).
    assert (JK : j <= k). { destruct (Z.le_gt_cases j k) as [|G]; auto. specialize (M k ltac:(lia)). rewrite Z.mul_1_l in M. nia. }
    assert (F : Z.abs (m * 10 ^ k) = Z.abs m * 10 ^ (k - j) * 10 ^ j).
    { rewrite Z.abs_mul. replace (10 ^ k) with (10 ^ (k - j) * 10 ^ j) by (rewrite <- Z.pow_add_r by lia; f_equal; lia).
      rewrite (Z.abs_eq (10 ^ (k - j) * 10 ^ j)); [ lia |]. apply Z.mul_nonneg_nonneg; apply Z.pow_nonneg; lia. }
    rewrite F, round_even_exact by assumption. rewrite <- F. lia.
Qed.

Lemma round_even_spec a p : 0 <= a -> 0 < p -> 2 * Z.abs (a - round_even a p * p) <= p /\ (2 * Z.abs (a - round_even a p * p) = p -> Z.even (round_even a p) = true).
Proof.
  intros A P. unfold round_even. pose proof (Z.div_mod a p ltac:(lia)) as D. pose proof (Z.mod_pos_bound a p P) as B. set (q := a / p) in *. set (r := a mod p) in *. clearbody q r.
  assert (E : a - q * p = r) by lia. assert (E1 : a - (q + 1) * p = r - p) by lia.
  destruct (Z.ltb_spec (2 * r) p). { rewrite E. split; lia. } destruct (Z.ltb_spec p (2 * r)). { rewrite E1. split; lia. }
  destruct (Z.even q) eqn:Eq. { rewrite E. split; [ lia | auto ]. } rewrite E1. split; [ lia |]. intros _. rewrite Z.even_add, Eq. reflexivity.
Qed.
Lemma plain_nearest x : Z.abs x < 10 ^ 26 -> exists j q, 0 <= j /\ plain x = Z.sgn x * (q * 10 ^ j) /\
  2 * Z.abs (Z.abs x - q * 10 ^ j) <= 10 ^ j /\ (2 * Z.abs (Z.abs x - q * 10 ^ j) = 10 ^ j -> Z.even q = true) /\
  Z.abs x < 10 ^ (j + 6) /\ (0 < j -> 10 ^ (j + 5) <= Z.abs x).
Proof.
  intro B. unfold plain. destruct (scale_spec 20 1 (Z.abs x)) as (j & J & E & H & M); try lia. rewrite E, Z.mul_1_l in *. exists j, (round_even (Z.abs x) (10 ^ j)).
  pose proof (Z.pow_pos_nonneg 10 j ltac:(lia) J) as P. destruct (round_even_spec (Z.abs x) (10 ^ j) ltac:(lia) P) as (R1 & R2). split; [ exact J |]. split; [ reflexivity |]. split; [ exact R1 |]. split; [ exact R2 |].
  rewrite !Z.pow_add_r by lia. change (10 ^ 6) with 1000000. change (10 ^ 5) with 100000. split; [ lia |]. intro Jp. specialize (M (j - 1) ltac:(lia)). replace j with (Z.succ (j - 1)) at 1 by lia. rewrite Z.pow_succ_r by lia. lia.
Qed.
