From Coq Require Import ZArith List Bool Lia.
From Verif Require Import Model.Archive Spec.Archive Proofs.Archive Model.Pack Spec.Pack.
Import ListNotations.
Open Scope Z_scope.

Lemma ntotal_nonneg l : Forall (fun d => 0 <= d) l -> 0 <= ntotal l.
Proof. intro H. apply nonneg_total. apply forallb_forall. rewrite Forall_forall in H. intros x I. apply Z.leb_le. now apply H. Qed.
Lemma wf_size m : wf_any m -> packet_size m = Z.of_nat (length (bytes m)).
Proof. intros [_ H]. unfold packet_size. lia. Qed.
Lemma len_flat m ms : Z.of_nat (length (flat_map bytes (m :: ms))) = Z.of_nat (length (bytes m)) + Z.of_nat (length (flat_map bytes ms)).
Proof. cbn [flat_map]. rewrite app_length. lia. Qed.

Lemma scan_spec ms : forall tot first same, Forall wf_any ms ->
  fst (fst (scan ms tot first same)) = tot + total_bytes ms /\
  (forall t, first = Some t -> snd (fst (scan ms tot first same)) = Some t) /\
  (total_bytes ms > 0 -> exists t, snd (fst (scan ms tot first same)) = Some t /\ (first = None \/ first = Some t)) /\
  (snd (scan ms tot first same) = true -> forall t, snd (fst (scan ms tot first same)) = Some t ->
     exists k, total_bytes ms = k * esz t).
Proof.
  induction ms as [|m ms IH]; intros tot first same W.
  - cbn. unfold total_bytes. cbn. repeat split; auto; try lia. intros _ t _. exists 0. lia.
  - inversion W as [|? ? Wm Wr]; subst. cbn [scan]. rewrite (wf_size m Wm). unfold total_bytes in *. rewrite len_flat.
    destruct (Z.ltb_spec 0 (Z.of_nat (length (bytes m)))) as [P|P].
    + set (f := match first with Some t => t | None => ty m end).
      destruct (IH (tot + Z.of_nat (length (bytes m))) (Some f) (same && (ty m =? f)) Wr) as (A & B & C & D).
      specialize (B f eq_refl). repeat split.
      * lia.
      * intros t ->. exact B.
      * intros _. exists f. split; auto. unfold f. destruct first; auto.
      * intros S t E. destruct (D S t E) as [k K]. assert (t = f) by congruence. subst t.
        assert (T : ty m = f).
        { clear - S. revert S. generalize (tot + Z.of_nat (length (bytes m))) as u. generalize (Some f) as o.
          assert (M : forall ms u o s, snd (scan ms u o s) = true -> s = true).
          { clear. induction ms as [|a ms IH]; intros u o s; cbn [scan]; auto. destruct (0 <? _); intro H; apply IH in H; auto.
            now apply andb_true_iff in H. }
          intros o u S. apply M in S. apply andb_true_iff in S. now apply Z.eqb_eq. }
        destruct Wm as [_ L]. exists (k + ntotal (dims m)). rewrite T in L. lia.
    + destruct (IH tot first same Wr) as (A & B & C & D). replace (Z.of_nat (length (bytes m))) with 0 by lia. rewrite Z.add_0_l. repeat split; auto; lia.
Qed.
Lemma info_total_eq ms : Forall wf_any ms -> info_total (infos ms) = total_bytes ms.
Proof.
  unfold total_bytes. induction 1 as [|m ms W Wr IH]; auto. cbn [infos map info_total fold_right]. rewrite len_flat. 
  unfold info_total, infos in IH. rewrite IH. cbn [isize itype]. rewrite <- (wf_size m W). reflexivity.
Qed.
Definition unpacked (m : nmat) : nmat := match bytes m with [] => empty_mat | _ => m end.
Lemma carve_eq ms : Forall wf_any ms -> carve (infos ms) (flat_map bytes ms) = map unpacked ms.
Proof.
  induction 1 as [|m ms W Wr IH]; auto. cbn [infos map carve isize itype flat_map].
  change (ntotal (dims m) * esz (ty m)) with (packet_size m). rewrite (wf_size m W), Nat2Z.id. unfold unpacked at 1.
  destruct (bytes m) as [|b l] eqn:B.
  - cbn [length Z.of_nat Z.ltb Z.compare app]. f_equal. exact IH.
  - rewrite (proj2 (Z.ltb_lt _ _)) by (cbn [length]; lia). rewrite <- B. rewrite firstn_app, Nat.sub_diag, firstn_O, app_nil_r, firstn_all.
    rewrite skipn_app, Nat.sub_diag, skipn_all. cbn [app skipn]. f_equal; [ apply nmat_eta | exact IH ].
Qed.
Lemma unpacked_same m : same_content m (unpacked m).
Proof. unfold same_content, unpacked. destruct (bytes m) eqn:B; split; intro H; try congruence; auto. Qed.
Lemma all_empty ms : Forall wf_any ms -> total_bytes ms = 0 -> forallb (fun i => ntotal (isize i) =? 0) (infos ms) = true /\ map unpacked ms = map (fun _ => empty_mat) (infos ms).
Proof.
  unfold total_bytes. induction 1 as [|m ms W Wr IH]; intro H; auto. rewrite len_flat in H. destruct IH as [A B]; [ lia |].
  cbn [infos map forallb isize]. unfold infos in *. rewrite A. destruct W as [Wd Wl]. pose proof (esz_pos (ty m)).
  assert (Z0 : ntotal (dims m) = 0) by (pose proof (ntotal_nonneg _ Wd); nia). rewrite Z0. split; auto.
  rewrite B. f_equal. unfold unpacked. destruct (bytes m); auto. cbn [length] in H. lia.
Qed.
Lemma to_int_small x : 0 <= x < 2 ^ 31 -> to_int x = x.
Proof. intro H. unfold to_int. rewrite Z.mod_small by lia. rewrite (proj2 (Z.ltb_lt _ _)) by lia. reflexivity. Qed.

Lemma pack_unpack ms : Forall wf_any ms -> total_bytes ms < 2 ^ 31 ->
  exists p, packData ms = Some p /\ wf_any p /\ bytes p = flat_map bytes ms /\ unpackData p (infos ms) = Some (map unpacked ms).
Proof.
  intros W B. destruct ms as [|m [|m2 r]].
  - exists empty_mat. repeat split; auto. constructor.
  - exists m. inversion W as [|? ? Wm _]; subst. split; [ reflexivity |]. split; [ assumption |]. split; [ cbn; now rewrite app_nil_r |].
    unfold unpackData. pose proof Wm as [Wd Wl]. pose proof (esz_pos (ty m)) as E. pose proof (ntotal_nonneg _ Wd) as N.
    destruct (Z.eqb_spec (ntotal (dims m)) 0) as [Z0|Z0].
    + destruct (all_empty [m] W) as [A1 A2]. { unfold total_bytes. cbn. rewrite app_nil_r. lia. } rewrite A1, A2. reflexivity.
    + rewrite (info_total_eq _ W). unfold total_bytes. cbn [flat_map]. rewrite app_nil_r.
      cbn [infos map]. rewrite (proj2 (Z.ltb_lt _ _)) by nia. rewrite (proj2 (Z.eqb_eq _ _)) by lia. cbn [andb].
      pose proof (carve_eq [m] W) as C. cbn [flat_map] in C. rewrite app_nil_r in C. cbn [infos map] in C. rewrite C. reflexivity.
  - remember (m :: m2 :: r) as ms eqn:Hms. 
    destruct (scan_spec ms 0 None true W) as (A & _ & C & D).
    assert (PK : packData ms = let '(tot, first, same) := scan ms 0 None true in
      if tot =? 0 then Some empty_mat else
      let t := match first with Some t => t | None => 0 end in
      let '(pt, cols) := packet_layout tot t same in
      if (cols <? 0) || (cols * esz pt <? tot) then None else Some (Nmat pt [1; cols] (flat_map bytes ms))) by (subst ms; reflexivity).
    rewrite PK. clear PK. destruct (scan ms 0 None true) as [[tot first] same]. cbn [fst snd] in *. rewrite Z.add_0_l in A. subst tot.
    destruct (Z.eqb_spec (total_bytes ms) 0) as [Z0|Z0].
    + exists empty_mat. split; [ reflexivity |]. split; [ repeat split; constructor |]. 
      split. { unfold total_bytes in Z0. destruct (flat_map bytes ms); auto. cbn [length] in Z0. lia. }
      destruct (all_empty ms W Z0) as [A1 A2]. unfold unpackData. cbn [dims empty_mat ntotal Z.eqb]. rewrite A1, A2. reflexivity.
    + assert (TP : total_bytes ms > 0) by (unfold total_bytes in *; lia). destruct (C TP) as (t & Ft & _). subst first.
      assert (L : exists pt cols, packet_layout (total_bytes ms) t same = (pt, cols) /\ 0 <= cols /\ cols * esz pt = total_bytes ms).
      { unfold packet_layout. destruct same.
        - destruct (D eq_refl t eq_refl) as [k K]. pose proof (esz_pos t). rewrite K, Z.div_mul by lia.
          exists t, k. assert (0 <= k < 2 ^ 31) by nia. rewrite to_int_small by lia. repeat split; lia.
        - exists 0, (total_bytes ms). rewrite to_int_small by lia. change (esz 0) with 1. repeat split; lia. }
      destruct L as (pt & cols & -> & Pc & Ec). rewrite Ec, Z.ltb_irrefl, (proj2 (Z.ltb_ge _ _)) by lia. cbn [orb].
      eexists. split; [ reflexivity |]. split.
      { split; cbn [dims bytes ty]; [ repeat constructor; lia |]. cbn [ntotal prod fold_right]. unfold total_bytes in Ec. lia. }
      split; [ reflexivity |]. unfold unpackData. cbn [dims ty bytes ntotal prod fold_right].
      pose proof (esz_pos pt). rewrite (proj2 (Z.eqb_neq _ 0)) by nia. rewrite (info_total_eq ms W), carve_eq by assumption.
      rewrite (proj2 (Z.ltb_lt _ _)) by lia. rewrite (proj2 (Z.eqb_eq _ _)) by lia. cbn [andb].
      destruct (infos ms) eqn:I; auto. subst ms. discriminate.
Qed.
Lemma pack_unpack_same ms : Forall wf_any ms -> total_bytes ms < 2 ^ 31 ->
  exists p out, packData ms = Some p /\ bytes p = flat_map bytes ms /\ unpackData p (infos ms) = Some out /\ Forall2 same_content ms out.
Proof.
  intros W B. destruct (pack_unpack ms W B) as (p & P & _ & E & U). exists p, (map unpacked ms). repeat split; auto.
  clear. induction ms as [|m ms IH]; cbn [map]; constructor; auto. apply unpacked_same.
Qed.
(** unpacking foreign data never reads outside the packet and consumes it exactly *)
Lemma unpack_exact p is out : wf_any p -> Forall (fun i => Forall (fun d => 0 <= d) (isize i)) is -> unpackData p is = Some out ->
  flat_map bytes out = bytes p /\ Forall wf_any out /\ length out = length is.
Proof.
  intros [Wd Wl] Wi H. unfold unpackData in H. destruct (Z.eqb_spec (ntotal (dims p)) 0) as [Z0|Z0].
  - destruct (forallb _ is) eqn:F; [| discriminate ]. assert (out = map (fun _ => empty_mat) is) by congruence. subst out.
    split; [| split; [| apply map_length ]].
    + rewrite Z0, Z.mul_0_r in Wl. destruct (bytes p); [| cbn [length] in Wl; lia ]. clear. induction is; auto.
    + clear. induction is; cbn [map]; constructor; auto. split; [ constructor | reflexivity ].
  - destruct is as [|i0 is0]; [ discriminate |]. set (is := i0 :: is0) in *. clearbody is. clear i0 is0.
    destruct (_ && _) eqn:C; [| discriminate ]. apply andb_true_iff in C. destruct C as [C1 C2]. apply Z.ltb_lt in C1. apply Z.eqb_eq in C2.
    assert (out = carve is (bytes p)) by congruence. subst out. clear H.
    assert (L : info_total is = Z.of_nat (length (bytes p))) by lia. clear - L Wi. revert L. generalize (bytes p) as d. clear p.
    induction Wi as [|i is Wi Ws IH]; intros d L.
    + cbn in L. destruct d; [| cbn [length] in L; lia ]. repeat split. constructor.
    + cbn [info_total fold_right] in L. fold (info_total is) in L. cbn [carve].
      pose proof (esz_pos (itype i)) as E. pose proof (ntotal_nonneg _ Wi) as N.
      assert (P : 0 <= info_total is).
      { clear - Ws. induction Ws as [|j is Wj Ws IH]; [ cbn; lia |]. cbn [info_total fold_right]. fold (info_total is).
        pose proof (esz_pos (itype j)) as E. pose proof (ntotal_nonneg _ Wj) as N. nia. }
      destruct (Z.ltb_spec 0 (ntotal (isize i) * esz (itype i))) as [Q|Q].
      * destruct (IH (skipn (Z.to_nat (ntotal (isize i) * esz (itype i))) d)) as (A & B & C). { rewrite skipn_length. lia. }
        cbn [flat_map bytes length]. rewrite A, C. split; [ apply firstn_skipn |]. split; auto. constructor; auto.
        split; cbn [dims bytes ty]; auto. rewrite firstn_length. lia.
      * destruct (IH d) as (A & B & C); [ lia |]. cbn [flat_map bytes length empty_mat app]. rewrite C. repeat split; auto.
        constructor; auto. split; [ constructor | reflexivity ].
Qed.
Lemma scan_big d : let big := Nmat 0 [1; 2 ^ 31 - 1] d in let small := Nmat 0 [1; 3] [0; 0; 0] in
  scan [big; big; small] 0 None true = (2 ^ 32 + 1, Some 0, true).
Proof. vm_compute. reflexivity. Qed.
Lemma pack_too_big_ d : Z.of_nat (length d) = 2 ^ 31 - 1 ->
  let big := Nmat 0 [1; 2 ^ 31 - 1] d in let small := Nmat 0 [1; 3] [0; 0; 0] in let ms := [big; big; small] in
  Forall wf_any ms /\ Forall (fun m => Forall (fun d => d < 2 ^ 31) (dims m)) ms /\
  total_bytes ms = 2 ^ 32 + 1 /\ (let '(tot, first, same) := scan ms 0 None true in packet_layout tot 0 same = (0, 1)) /\ packData ms = None.
Proof.
  intros Ln big small ms. pose proof (scan_big d) as S. cbv zeta in S. fold big small in S.
  split; [| split; [| split; [| split ]]].
  - assert (Wb : wf_any big).
    { split; [ repeat constructor; lia |]. unfold big. cbn [bytes dims ty ntotal prod fold_right]. rewrite Ln. reflexivity. }
    repeat constructor; auto; cbn; lia.
  - repeat constructor; lia.
  - unfold total_bytes. cbn [ms flat_map]. rewrite !app_length. unfold big. cbn [bytes]. cbn [length small bytes]. lia.
  - unfold ms. rewrite S. vm_compute. reflexivity.
  - unfold packData, ms. rewrite S. reflexivity.
Qed.
Lemma pack_too_big : exists ms, Forall wf_any ms /\ Forall (fun m => Forall (fun d => d < 2 ^ 31) (dims m)) ms /\
  total_bytes ms = 2 ^ 32 + 1 /\ (let '(tot, first, same) := scan ms 0 None true in packet_layout tot 0 same = (0, 1)) /\ packData ms = None.
Proof.
  assert (E : exists d : list Z, Z.of_nat (length d) = 2 ^ 31 - 1).
  { exists (repeat 0 (Z.to_nat (2 ^ 31 - 1))). rewrite repeat_length, Z2Nat.id by lia. reflexivity. }
  destruct E as [d E]. eexists. exact (pack_too_big_ d E).
Qed.
