(* Image tiles in shared memory and the median blur: proofs. *)
From Coq Require Import ZArith List Bool Lia Permutation.
From Verif Require Import Lib.Grid Model.GlScan Model.GlTile Spec.GlTile Proofs.GlScan.
Import ListNotations.
Open Scope Z_scope.

Lemma put_same {A} (f : Z * Z -> A) p v : put f p v p = v.
Proof. unfold put. now rewrite !Z.eqb_refl. Qed.
Lemma put_other {A} (f : Z * Z -> A) p v q : q <> p -> put f p v q = f q.
Proof.
  intro D. unfold put. destruct (Z.eqb_spec (fst q) (fst p)), (Z.eqb_spec (snd q) (snd p)); try reflexivity. exfalso. apply D. destruct p, q; cbn in *; congruence.
Qed.
Lemma pair_dec (p q : Z * Z) : {p = q} + {p <> q}.
Proof. decide equality; apply Z.eq_dec. Qed.

Section Preload.
Variables (w h border : Z) (scaled : Z -> Z) (im : image) (x0 y0 : Z).
Hypotheses (W : 3 < w) (H : 3 < h) (B : 0 <= border) (S0 : scaled 0 = 0) (S1 : scaled (w - 1) = (w - 1) * h / w).
Notation quadrant := (quadrant h scaled).
Notation cell := (cell w h border).
Notation limit := (limit w h border).
Notation row_length := (row_length w h border).
Notation advance := (advance w h border scaled im x0 y0).

(* every quadrant has an invocation *)
Lemma quadrants q : 0 <= q <= 3 -> exists t, in_group w h t /\ quadrant t = q.
Proof.
  intro Q. assert (q = 0 \/ q = 1 \/ q = 2 \/ q = 3) as [->|[->|[->| ->]]] by lia.
  - exists (0, 0). split; [unfold in_group; cbn; lia|]. unfold GlTile.quadrant. cbn [fst snd]. rewrite S0.
    replace (0 <? 0) with false by reflexivity. rewrite !andb_false_l. replace (0 <=? 0) with true by reflexivity. rewrite (proj2 (Z.ltb_lt 0 (h - 0))) by lia. reflexivity.
  - pose proof (Z.div_mod ((w - 1) * h) w ltac:(lia)) as D. pose proof (Z.mod_pos_bound ((w - 1) * h) w ltac:(lia)) as M. rewrite <- S1 in D. set (u := scaled (w - 1)) in *.
    assert (U : h - u < u). { nia. }
    exists (w - 1, u - 1). split; [unfold in_group; cbn; nia|]. unfold GlTile.quadrant. cbn [fst snd]. fold u. rewrite (proj2 (Z.ltb_lt (u - 1) u)), (proj2 (Z.leb_le (h - u) (u - 1))) by lia. reflexivity.
  - exists (0, h - 1). split; [unfold in_group; cbn; lia|]. unfold GlTile.quadrant. cbn [fst snd]. rewrite S0.
    rewrite (proj2 (Z.ltb_ge (h - 1) 0)) by lia. rewrite andb_false_l. rewrite (proj2 (Z.ltb_lt 0 (h - 1))), (proj2 (Z.leb_le (h - 1) (h - 0))) by lia. reflexivity.
  - pose proof (Z.div_mod ((w - 1) * h) w ltac:(lia)) as D. pose proof (Z.mod_pos_bound ((w - 1) * h) w ltac:(lia)) as M. rewrite <- S1 in D. set (u := scaled (w - 1)) in *.
    assert (U : u < h) by nia. assert (U' : h - u < h - 1) by nia.
    exists (w - 1, h - 1). split; [unfold in_group; cbn; lia|]. unfold GlTile.quadrant. cbn [fst snd]. fold u. rewrite (proj2 (Z.ltb_ge (h - 1) u)) by lia. rewrite andb_false_l.
    rewrite (proj2 (Z.leb_gt (h - 1) (h - u))) by lia. rewrite andb_false_r. rewrite (proj2 (Z.ltb_ge (h - 1) (h - u))) by lia. rewrite andb_false_r. reflexivity.
Qed.
Lemma quadrant_range t : 0 <= quadrant t <= 3.
Proof. unfold GlTile.quadrant. cbv zeta. repeat match goal with |- context [if ?c then _ else _] => destruct c end; lia. Qed.

Definition border_cell (p : Z * Z) : Prop := (- border <= fst p < w + border /\ - border <= snd p < h + border) /\ ~ in_group w h p.
Lemma row_pos q : 0 < row_length q.
Proof. unfold GlTile.row_length. destruct ((q =? 1) || (q =? 2)); lia. Qed.
Lemma ticket q k : 0 <= k < limit q -> 0 <= k / row_length q < border /\ 0 <= k mod row_length q < row_length q /\ k = row_length q * (k / row_length q) + k mod row_length q.
Proof.
  intro K. pose proof (row_pos q) as R. unfold GlTile.limit in K. split; [split; [apply Z.div_pos; lia|apply Z.div_lt_upper_bound; lia]|]. split; [apply Z.mod_pos_bound; lia|apply Z.div_mod; lia].
Qed.
(* which part of the border each quadrant loads *)
Definition part (q : Z) (p : Z * Z) : Prop :=
  if q =? 1 then w <= fst p < w + border /\ - border <= snd p < h
  else if q =? 2 then - border <= fst p < 0 /\ 0 <= snd p < h + border
  else if q =? 0 then - border <= fst p < w /\ - border <= snd p < 0
  else 0 <= fst p < w + border /\ h <= snd p < h + border.
Lemma cell_part q k : 0 <= q <= 3 -> 0 <= k < limit q -> part q (cell q k).
Proof.
  intros Q K. destruct (ticket q k K) as (A & C & _). revert A C. unfold part, GlTile.cell, GlTile.row_length.
  assert (q = 0 \/ q = 1 \/ q = 2 \/ q = 3) as [->|[->|[->| ->]]] by lia; cbn [Z.eqb Pos.eqb orb fst snd]; intros; lia.
Qed.
Lemma part_cell q p : 0 <= q <= 3 -> part q p -> exists k, 0 <= k < limit q /\ cell q k = p.
Proof.
  intros Q P. set (rc := if q =? 1 then (w + border - 1 - fst p, snd p + border) else if q =? 2 then (fst p + border, h + border - 1 - snd p) else if q =? 0 then (snd p + border, fst p + border) else (h + border - 1 - snd p, w + border - 1 - fst p)).
  assert (R : 0 <= fst rc < border /\ 0 <= snd rc < row_length q).
  { unfold rc, part, GlTile.row_length in *. assert (q = 0 \/ q = 1 \/ q = 2 \/ q = 3) as [->|[->|[->| ->]]] by lia; cbn [Z.eqb Pos.eqb orb fst snd] in *; lia. }
  exists (snd rc + fst rc * row_length q). unfold GlTile.limit. pose proof (row_pos q). split; [nia|].
  assert (E1 : (snd rc + fst rc * row_length q) / row_length q = fst rc) by (rewrite Z.div_add, Z.div_small by lia; lia).
  assert (E2 : (snd rc + fst rc * row_length q) mod row_length q = snd rc) by (rewrite Z.mod_add, Z.mod_small by lia; lia).
  unfold GlTile.cell. cbv zeta. rewrite E1, E2. unfold rc. destruct p as [a b].
  assert (q = 0 \/ q = 1 \/ q = 2 \/ q = 3) as [->|[->|[->| ->]]] by lia; cbn [Z.eqb Pos.eqb orb fst snd]; f_equal; lia.
Qed.
Lemma parts p : border_cell p <-> exists q, 0 <= q <= 3 /\ part q p.
Proof.
  unfold border_cell, in_group. split.
  - intros (R & N). destruct (Z_lt_dec (snd p) 0) as [S|S]; [destruct (Z_lt_dec (fst p) w) as [F|F]; [exists 0|exists 1]|destruct (Z_lt_dec (fst p) 0) as [F|F]; [exists 2|destruct (Z_lt_dec (snd p) h) as [S'|S']; [exists 1|exists 3]]];
      (split; [lia|]); unfold part; cbn [Z.eqb Pos.eqb]; lia.
  - intros (q & Q & P). unfold part in P. assert (q = 0 \/ q = 1 \/ q = 2 \/ q = 3) as [->|[->|[->| ->]]] by lia; cbn [Z.eqb Pos.eqb] in P; lia.
Qed.
Lemma cells p : border_cell p <-> exists q k, 0 <= q <= 3 /\ 0 <= k < limit q /\ cell q k = p.
Proof.
  rewrite parts. split.
  - intros (q & Q & P). destruct (part_cell q p Q P) as (k & K & E). exists q, k. tauto.
  - intros (q & k & Q & K & <-). exists q. split; [exact Q|]. apply cell_part; assumption.
Qed.
Lemma cells_once q k q' k' : 0 <= q <= 3 -> 0 <= q' <= 3 -> 0 <= k < limit q -> 0 <= k' < limit q' -> cell q k = cell q' k' -> q = q' /\ k = k'.
Proof.
  intros Q Q' K K' E. pose proof (cell_part q k Q K) as P. pose proof (cell_part q' k' Q' K') as P'. rewrite E in P.
  assert (EQ : q = q').
  { unfold part in P, P'. set (p := cell q' k') in *. clearbody p. assert (q = 0 \/ q = 1 \/ q = 2 \/ q = 3) as [->|[->|[->| ->]]] by lia; cbn [Z.eqb Pos.eqb] in P;
    assert (q' = 0 \/ q' = 1 \/ q' = 2 \/ q' = 3) as [->|[->|[->| ->]]] by lia; cbn [Z.eqb Pos.eqb] in P'; lia. }
  split; [exact EQ|]. subst q'. destruct (ticket q k K) as (A & C & D). destruct (ticket q k' K') as (A' & C' & D').
  unfold GlTile.cell in E. cbv zeta in E.
  assert (EE : k / row_length q = k' / row_length q /\ k mod row_length q = k' mod row_length q).
  { destruct (q =? 1); [|destruct (q =? 2); [|destruct (q =? 0)]]; apply pair_equal_spec in E; lia. }
  destruct EE as (E1 & E2). rewrite D, D', E1, E2. reflexivity.
Qed.

(* what the array holds while the invocations run *)
Definition right (s : state) (p : Z * Z) : Prop := data s p = image_load im (x0 + fst p) (y0 + snd p).
Definition sound (s : state) : Prop :=
  (forall p, in_group w h p -> right s p) /\ (forall q, 0 <= counters s q) /\
  (forall q k, 0 <= q <= 3 -> 0 <= k < counters s q -> k < limit q -> right s (cell q k) \/ exists t, in_group w h t /\ quadrant t = q /\ at_place s t = Hold k) /\
  (forall t k, at_place s t = Hold k -> 0 <= k < limit (quadrant t) /\ k < counters s (quadrant t)) /\
  (forall t u k, at_place s t = Hold k -> at_place s u = Hold k -> quadrant t = quadrant u -> t = u) /\
  (forall t, at_place s t = Gone -> limit (quadrant t) < counters s (quadrant t)).
Lemma limit_nonneg q : 0 <= limit q.
Proof. unfold GlTile.limit. pose proof (row_pos q). nia. Qed.
Lemma sound_start g : sound (at_barrier w h im x0 y0 g).
Proof.
  unfold sound, right. cbn. repeat split; try lia; try discriminate.
  intros p P. unfold in_group in P. rewrite !(proj2 (Z.leb_le _ _)), !(proj2 (Z.ltb_lt _ _)) by lia. reflexivity.
Qed.
Lemma sound_step s t : in_group w h t -> sound s -> sound (advance s t).
Proof.
  intros G (I & C & T & Hd & U & D). unfold GlTile.advance. cbv zeta. pose proof (quadrant_range t) as QR. destruct (at_place s t) as [|k|] eqn:P.
  - (* a number is drawn *)
    set (q := quadrant t) in *. set (n := counters s q) in *.
    assert (NH : forall u j, put (at_place s) t (if n <? limit q then Hold n else Gone) u = Hold j -> (u = t /\ j = n /\ n < limit q) \/ (u <> t /\ at_place s u = Hold j)).
    { intros u j E. destruct (pair_dec u t) as [->|N].
      - rewrite put_same in E. destruct (Z.ltb_spec n (limit q)); [|discriminate]. left. injection E as <-. tauto.
      - rewrite put_other in E by exact N. tauto. }
    unfold sound. cbn [data counters at_place]. split; [exact I|]. split; [|split; [|split; [|split]]].
    + intros q'. destruct (q' =? q); [unfold n; pose proof (C q); lia|apply C].
    + intros q' k Q K L. destruct (Z.eqb_spec q' q) as [->|N].
      * destruct (Z.eq_dec k n) as [->|N'].
        -- right. exists t. split; [exact G|]. split; [reflexivity|]. rewrite put_same. rewrite (proj2 (Z.ltb_lt _ _) L). reflexivity.
        -- destruct (T q k Q) as [R|(u & Ug & Uq & Uh)]; [unfold n in *; lia|exact L|left; exact R|]. right. exists u. split; [exact Ug|]. split; [exact Uq|]. rewrite put_other; [exact Uh|]. intros ->. congruence.
      * destruct (T q' k Q K L) as [R|(u & Ug & Uq & Uh)]; [left; exact R|]. right. exists u. split; [exact Ug|]. split; [exact Uq|]. rewrite put_other; [exact Uh|]. intros ->. congruence.
    + intros u j E. apply NH in E. destruct E as [(-> & -> & L)|(N & E)].
      * fold q. rewrite Z.eqb_refl. pose proof (C q). unfold n in *. lia.
      * destruct (Hd u j E) as (A & A'). split; [exact A|]. destruct (Z.eqb_spec (quadrant u) q) as [Eq|]; [rewrite Eq in A'; unfold n; lia|exact A'].
    + intros u v j Eu Ev Q. apply NH in Eu. apply NH in Ev. destruct Eu as [(-> & -> & L)|(N & E)], Ev as [(-> & E2 & L')|(N' & E')]; try reflexivity.
      * destruct (Hd v n E') as (_ & A). rewrite <- Q in A. fold q in A. unfold n in A. lia.
      * subst j. destruct (Hd u n E) as (_ & A). rewrite Q in A. fold q in A. unfold n in A. lia.
      * apply (U u v j); assumption.
    + intros u E. destruct (pair_dec u t) as [->|N].
      * rewrite put_same in E. destruct (Z.ltb_spec n (limit q)); [discriminate|]. fold q. rewrite Z.eqb_refl. lia.
      * rewrite put_other in E by exact N. pose proof (D u E) as A. destruct (Z.eqb_spec (quadrant u) q) as [Eq|]; [rewrite Eq in *; unfold n; lia|exact A].
  - (* a pixel is stored *)
    set (q := quadrant t) in *. destruct (Hd t k P) as (K & KC). fold q in K, KC.
    assert (RR : forall p, right s p \/ p = cell q k -> data {| data := put (data s) (cell q k) (image_load im (x0 + fst (cell q k)) (y0 + snd (cell q k))); counters := counters s; at_place := put (at_place s) t Ask |} p = image_load im (x0 + fst p) (y0 + snd p)).
    { intros p Hp. cbn [data]. destruct (pair_dec p (cell q k)) as [->|N]; [apply put_same|]. rewrite put_other by exact N. destruct Hp as [R|R]; [exact R|contradiction]. }
    assert (NH : forall u j, put (at_place s) t Ask u = Hold j -> u <> t /\ at_place s u = Hold j).
    { intros u j E. destruct (pair_dec u t) as [->|N]; [rewrite put_same in E; discriminate|]. rewrite put_other in E by exact N. tauto. }
    unfold sound. split; [intros p Hp; apply RR; left; apply I; exact Hp|]. cbn [counters at_place]. split; [exact C|]. split; [|split; [|split]].
    + intros q' k' Q K' L. destruct (T q' k' Q K' L) as [R|(u & Ug & Uq & Uh)].
      * left. apply RR. left. exact R.
      * destruct (pair_dec u t) as [->|N].
        -- left. apply RR. right. fold q in Uq. subst q'. rewrite P in Uh. injection Uh as ->. reflexivity.
        -- right. exists u. split; [exact Ug|]. split; [exact Uq|]. rewrite put_other by exact N. exact Uh.
    + intros u j E. apply NH in E. apply Hd. tauto.
    + intros u v j Eu Ev Q. apply NH in Eu. apply NH in Ev. apply (U u v j); tauto.
    + intros u E. destruct (pair_dec u t) as [->|N]; [rewrite put_same in E; discriminate|]. rewrite put_other in E by exact N. apply D. exact E.
  - unfold sound. tauto.
Qed.
Lemma sound_run sched : forall s, (forall t, In t sched -> in_group w h t) -> sound s -> sound (fold_left advance sched s).
Proof.
  induction sched as [|t l IH]; intros s G S; [exact S|]. cbn [fold_left]. apply IH; [intros u U; apply G; right; exact U|]. apply sound_step; [apply G; left; reflexivity|exact S].
Qed.
Lemma preloaded g sched : (forall t, In t sched -> in_group w h t) -> finished w h (preload w h border scaled im x0 y0 g sched) ->
  forall x y, - border <= x < w + border -> - border <= y < h + border -> data (preload w h border scaled im x0 y0 g sched) (x, y) = image_load im (x0 + x) (y0 + y).
Proof.
  intros G F x y X Y. pose proof (sound_run sched _ G (sound_start g)) as S. fold (preload w h border scaled im x0 y0 g sched) in S. set (s := preload w h border scaled im x0 y0 g sched) in *.
  destruct S as (I & C & T & Hd & U & D).
  assert (A : forall p, - border <= fst p < w + border /\ - border <= snd p < h + border -> right s p); [|exact (A (x, y) (conj X Y))].
  intros p P. assert (GD : in_group w h p \/ ~ in_group w h p) by (unfold in_group; lia). destruct GD as [IN|OUT]; [apply I; exact IN|].
  assert (BC : border_cell p) by (split; assumption). apply cells in BC. destruct BC as (q & k & Q & K & <-).
  destruct (quadrants q Q) as (t & Gt & Et). pose proof (D t (F t Gt)) as L. rewrite Et in L.
  destruct (T q k Q) as [R|(u & Gu & Qu & Hu)]; [lia|lia|exact R|rewrite (F u Gu) in Hu; discriminate].
Qed.
(* no two invocations ever store to the same place *)
Lemma writers g sched t u k j : (forall t, In t sched -> in_group w h t) -> let s := preload w h border scaled im x0 y0 g sched in
  at_place s t = Hold k -> at_place s u = Hold j -> cell (quadrant t) k = cell (quadrant u) j -> t = u.
Proof.
  intros G s Ht Hu E. pose proof (sound_run sched _ G (sound_start g)) as S. fold (preload w h border scaled im x0 y0 g sched) in S. fold s in S. destruct S as (_ & _ & _ & Hd & U & _).
  destruct (Hd t k Ht) as (K & _). destruct (Hd u j Hu) as (J & _). destruct (cells_once _ _ _ _ (quadrant_range t) (quadrant_range u) K J E) as (Q & <-). apply (U t u k); assumption.
Qed.
(* an invocation that runs alone comes to its end *)
Lemma one_finishes t : in_group w h t -> forall n s, sound s -> Z.to_nat (limit (quadrant t) - counters s (quadrant t)) = n ->
  exists m, at_place (fold_left advance (repeat t m) s) t = Gone /\ forall u, u <> t -> at_place (fold_left advance (repeat t m) s) u = at_place s u.
Proof.
  intros G. induction n as [n IH] using lt_wf_ind. intros s S N. destruct (at_place s t) as [|k|] eqn:P.
  - (* asks *)
    destruct (Z_lt_dec (counters s (quadrant t)) (limit (quadrant t))) as [L|L].
    + assert (S1' : sound (advance s t)) by (apply sound_step; assumption). assert (S2 : sound (advance (advance s t) t)) by (apply sound_step; assumption).
      assert (A1 : advance s t = {| data := data s; counters := fun q' => if q' =? quadrant t then counters s (quadrant t) + 1 else counters s q'; at_place := put (at_place s) t (Hold (counters s (quadrant t))) |}).
      { unfold GlTile.advance. cbv zeta. rewrite P, (proj2 (Z.ltb_lt _ _) L). reflexivity. }
      assert (A2 : counters (advance (advance s t) t) (quadrant t) = counters s (quadrant t) + 1 /\ forall u, u <> t -> at_place (advance (advance s t) t) u = at_place s u).
      { unfold GlTile.advance at 1 3. rewrite A1. cbn [at_place data counters]. rewrite put_same. cbn [counters at_place]. rewrite Z.eqb_refl. split; [reflexivity|]. intros u D. now rewrite !put_other by exact D. }
      destruct A2 as (A2 & A3).
      destruct (IH (Z.to_nat (limit (quadrant t) - counters (advance (advance s t) t) (quadrant t)))) with (s := advance (advance s t) t) as (m & M1 & M2); [rewrite A2; lia|exact S2|reflexivity|].
      exists (2 + m)%nat. cbn [Nat.add repeat fold_left]. split; [exact M1|]. intros u D. rewrite M2 by exact D. apply A3. exact D.
    + exists 1%nat. cbn [repeat fold_left]. unfold GlTile.advance. cbv zeta. rewrite P, (proj2 (Z.ltb_ge _ _)) by lia. cbn [at_place]. rewrite put_same. split; [reflexivity|]. intros u D. now rewrite put_other by exact D.
  - (* stores, then asks *)
    assert (S1' : sound (advance s t)) by (apply sound_step; assumption).
    assert (A1 : counters (advance s t) = counters s /\ at_place (advance s t) = put (at_place s) t Ask) by (unfold GlTile.advance; cbv zeta; rewrite P; split; reflexivity). destruct A1 as (AC & AP).
    destruct (Z_lt_dec (counters s (quadrant t)) (limit (quadrant t))) as [L|L].
    + assert (S2 : sound (advance (advance s t) t)) by (apply sound_step; assumption).
      assert (A2 : counters (advance (advance s t) t) (quadrant t) = counters s (quadrant t) + 1 /\ forall u, u <> t -> at_place (advance (advance s t) t) u = at_place s u).
      { unfold GlTile.advance at 1 3. cbv zeta. rewrite AP, put_same, AC. cbn [counters at_place]. rewrite Z.eqb_refl. split; [reflexivity|]. intros u D. now rewrite !put_other by exact D. }
      destruct A2 as (A2 & A3).
      destruct (IH (Z.to_nat (limit (quadrant t) - counters (advance (advance s t) t) (quadrant t)))) with (s := advance (advance s t) t) as (m & M1 & M2); [rewrite A2; lia|exact S2|reflexivity|].
      exists (2 + m)%nat. cbn [Nat.add repeat fold_left]. split; [exact M1|]. intros u D. rewrite M2 by exact D. apply A3. exact D.
    + exists 2%nat. cbn [repeat fold_left]. unfold GlTile.advance at 1 3. cbv zeta. rewrite AP, put_same, AC, (proj2 (Z.ltb_ge _ _)) by lia. cbn [at_place]. rewrite put_same. split; [reflexivity|]. intros u D. now rewrite !put_other by exact D.
  - exists 0%nat. cbn. tauto.
Qed.
Lemma all_finish s : sound s -> forall l, (forall t, In t l -> in_group w h t) -> exists sched, (forall t, In t sched -> in_group w h t) /\
  (forall t, In t l \/ at_place s t = Gone -> at_place (fold_left advance sched s) t = Gone).
Proof.
  intros S l. induction l as [|t l IH]; intro G.
  - exists []. cbn. tauto.
  - destruct IH as (sched & Gs & F); [intros; apply G; right; assumption|]. assert (Gt : in_group w h t) by (apply G; left; reflexivity).
    destruct (one_finishes t Gt _ (fold_left advance sched s) (sound_run sched s Gs S) eq_refl) as (m & M1 & M2).
    exists (sched ++ repeat t m). split.
    + intros u Hu. apply in_app_or in Hu. destruct Hu as [Hu|Hu]; [apply Gs; exact Hu|]. apply repeat_spec in Hu. subst u. exact Gt.
    + intros u Hu. rewrite fold_left_app. destruct (pair_dec u t) as [->|N]; [exact M1|]. rewrite M2 by exact N. apply F. destruct Hu as [[E|Hu]|Hu]; [congruence|left; exact Hu|right; exact Hu].
Qed.
Lemma finishes g sched : (forall t, In t sched -> in_group w h t) -> exists more, (forall t, In t more -> in_group w h t) /\ finished w h (preload w h border scaled im x0 y0 g (sched ++ more)).
Proof.
  intro G. pose proof (sound_run sched _ G (sound_start g)) as S.
  destruct (all_finish _ S (list_prod (zrange 0 w) (zrange 0 h))) as (more & Gm & F).
  { intros (a & b) I. apply in_prod_iff in I. rewrite !in_zrange in I. unfold in_group. cbn. lia. }
  exists more. split; [exact Gm|]. intros (a & b) T. unfold preload. rewrite fold_left_app. apply F. left. unfold in_group in T. cbn in T. apply in_prod; apply in_zrange; lia.
Qed.
End Preload.

(* the median *)
Lemma blur_ext k f g x y x' y' : (forall dx dy, - (k / 2) <= dx <= k / 2 -> - (k / 2) <= dy <= k / 2 -> f (x + dx, y + dy) = g (x' + dx, y' + dy)) -> median_blur k f x y = median_blur k g x' y'.
Proof.
  intro E. unfold median_blur. cbv zeta.
  rewrite (count_ext_in _ (fun d => 128 <? g (x' + snd d, y' + fst d))); [reflexivity|]. intros (a & b) I. apply in_grid in I. cbn [fst snd] in *. rewrite E by lia. reflexivity.
Qed.
Lemma shared_direct k w h scaled im x0 y0 g sched x y : 3 < w -> 3 < h -> 0 <= k -> scaled 0 = 0 -> scaled (w - 1) = (w - 1) * h / w ->
  (forall t, In t sched -> in_group w h t) -> finished w h (preload w h (k / 2) scaled im x0 y0 g sched) -> in_group w h (x, y) ->
  median_shared k (data (preload w h (k / 2) scaled im x0 y0 g sched)) x y = median_direct k im (x0 + x) (y0 + y).
Proof.
  intros W H K S0 S1 G F (X & Y). cbn in X, Y. unfold median_shared, median_direct. apply blur_ext. intros dx dy DX DY.
  assert (B : 0 <= k / 2) by (apply Z.div_pos; lia).
  rewrite (preloaded w h (k / 2) scaled im x0 y0 W H B S0 S1 g sched G F) by lia. cbn [fst snd]. f_equal; ring.
Qed.
Lemma window r x y : 0 <= r -> Permutation (map (fun d => (x + snd d, y + fst d)) (grid (- r) (r - - r + 1) (- r) (r - - r + 1))) (square r x y).
Proof.
  intro R. apply NoDup_Permutation.
  - apply FinFun.Injective_map_NoDup; [|apply nodup_grid]. intros (a & b) (c & d) E. cbn in E. apply pair_equal_spec in E. f_equal; lia.
  - unfold square. apply nodup_prod; apply nodup_zseq.
  - intros (a & b). unfold square. rewrite in_prod_iff, !in_zrange, in_map_iff. split.
    + intros ((c & d) & E & I). apply in_grid in I. cbn [fst snd] in *. apply pair_equal_spec in E. lia.
    + intro I. exists (b - y, a - x). cbn [fst snd]. split; [f_equal; lia|]. apply in_grid. cbn. lia.
Qed.
Lemma median_odd r im x y : 0 <= r -> (forall a b, texel im a b = 0 \/ texel im a b = 255) ->
  is_median (median_direct (2 * r + 1) im x y) (map (fun p => image_load im (fst p) (snd p)) (square r x y)).
Proof.
  intros R M. unfold median_direct, median_blur. cbv zeta.
  assert (E : (2 * r + 1) / 2 = r). { replace (2 * r + 1) with (1 + r * 2) by ring. rewrite Z.div_add by lia. reflexivity. } rewrite E.
  set (l := square r x y). set (ld := fun p : Z * Z => image_load im (fst p) (snd p)).
  assert (C : count (fun d => 128 <? image_load im (fst (x + snd d, y + fst d)) (snd (x + snd d, y + fst d))) (grid (- r) (r - - r + 1) (- r) (r - - r + 1)) = count (fun p => 128 <? ld p) l).
  { unfold l. rewrite <- (count_perm _ _ _ (window r x y R)). rewrite count_map. reflexivity. }
  rewrite C. assert (V : forall p, ld p = 0 \/ ld p = 255) by (intro p; unfold ld, image_load; destruct (within im (fst p) (snd p)); [apply M|left; reflexivity]).
  assert (L : Z.of_nat (length l) = (2 * r + 1) * (2 * r + 1)). { unfold l, square. rewrite prod_len. unfold zrange. rewrite !zseq_length. lia. }
  unfold is_median. rewrite map_length, L, !count_map. fold ld.
  assert (SP : count (fun _ => true) l = count (fun p => 128 <? ld p) l + count (fun p => negb (128 <? ld p)) l).
  { rewrite (count_split (fun _ => true) (fun p => 128 <? ld p)). reflexivity. }
  rewrite count_true, L in SP.
  pose proof (Z.div_mod ((2 * r + 1) * (2 * r + 1)) 2 ltac:(lia)) as D. pose proof (Z.mod_pos_bound ((2 * r + 1) * (2 * r + 1)) 2 ltac:(lia)) as D'.
  assert (OD : ((2 * r + 1) * (2 * r + 1)) mod 2 = 1). { replace ((2 * r + 1) * (2 * r + 1)) with (1 + (2 * r * r + 2 * r) * 2) by ring. rewrite Z.mod_add by lia. reflexivity. }
  destruct (Z.ltb_spec ((2 * r + 1) * (2 * r + 1) / 2) (count (fun p => 128 <? ld p) l)) as [A|A].
  - rewrite (count_ext_in (fun p => ld p <=? 255) (fun _ => true)) by (intros p _; destruct (V p) as [-> | ->]; reflexivity).
    rewrite (count_ext_in (fun p => 255 <=? ld p) (fun p => 128 <? ld p)) by (intros p _; destruct (V p) as [-> | ->]; reflexivity). rewrite count_true, L. lia.
  - rewrite (count_ext_in (fun p => ld p <=? 0) (fun p => negb (128 <? ld p))) by (intros p _; destruct (V p) as [-> | ->]; reflexivity).
    rewrite (count_ext_in (fun p => 0 <=? ld p) (fun _ => true)) by (intros p _; destruct (V p) as [-> | ->]; reflexivity). rewrite count_true, L. lia.
Qed.
Lemma corner r im : 1 <= r -> median_direct (2 * r + 1) im 0 0 = 0.
Proof.
  intro R. unfold median_direct, median_blur. cbv zeta.
  assert (E : (2 * r + 1) / 2 = r). { replace (2 * r + 1) with (1 + r * 2) by ring. rewrite Z.div_add by lia. reflexivity. } rewrite E.
  assert (C : count (fun d => 128 <? image_load im (fst (0 + snd d, 0 + fst d)) (snd (0 + snd d, 0 + fst d))) (grid (- r) (r - - r + 1) (- r) (r - - r + 1)) <= (r + 1) * (r + 1)).
  { eapply Z.le_trans; [apply (count_mono _ (fun d => (0 <=? fst d) && (0 <=? snd d)))|].
    - intros (a & b) _. cbn [fst snd]. rewrite !Z.add_0_l. unfold image_load, within. destruct (Z.leb_spec 0 b), (Z.leb_spec 0 a); cbn [andb]; rewrite ?andb_false_r; cbn; try discriminate; reflexivity.
    - unfold count, grid. rewrite (filter_prod (fun a => 0 <=? a) (fun b => 0 <=? b)), prod_len.
      assert (Fl : length (filter (fun a => 0 <=? a) (zrange (- r) (r - - r + 1))) = Z.to_nat (r + 1)).
      { unfold zrange. replace (Z.to_nat (r - - r + 1)) with (Z.to_nat r + Z.to_nat (r + 1))%nat by lia. rewrite zseq_app, filter_app, app_length.
        rewrite filter_none by (intros z I; apply in_zseq in I; apply Z.leb_gt; lia). rewrite filter_all by (intros z I; apply in_zseq in I; apply Z.leb_le; lia). rewrite zseq_length. reflexivity. }
      rewrite Fl. lia. }
  destruct (Z.ltb_spec ((2 * r + 1) * (2 * r + 1) / 2) (count (fun d => 128 <? image_load im (fst (0 + snd d, 0 + fst d)) (snd (0 + snd d, 0 + fst d))) (grid (- r) (r - - r + 1) (- r) (r - - r + 1)))) as [A|A]; [|reflexivity].
  exfalso. pose proof (Z.div_mod ((2 * r + 1) * (2 * r + 1)) 2 ltac:(lia)) as D. pose proof (Z.mod_pos_bound ((2 * r + 1) * (2 * r + 1)) 2 ltac:(lia)). nia.
Qed.

(* work groups that share the image *)
Section PostProc.
Variables (w h k : Z) (im : image).
Hypotheses (W : 0 < w) (H : 0 < h).
Notation occur := (occur w h k).
Notation allowed := (allowed w h k).
Notation in_tile := (in_tile w h k).
Notation history := (history w h k).
Definition owner (x y : Z) : Z * Z := (x / w, y / h).
Definition blurred (s : world) (x y : Z) : Z := median_shared k (tile_value s (owner x y)) (x mod w) (y mod h).
Definition settled (s : world) (x y : Z) : Prop := storing s (owner x y) = true /\ texel (mask s) x y = blurred s x y.
Definition consistent (s : world) : Prop :=
  (cols (mask s) = cols im /\ rows (mask s) = rows im) /\
  (forall x y, within im x y = true -> texel (mask s) x y = texel im x y \/ settled s x y) /\
  (forall g p v, tile s g p = Some v -> let x := fst g * w + fst p in let y := snd g * h + snd p in
    v = image_load im x y \/ within im x y = true /\ owner x y <> g /\ settled s x y /\ v = texel (mask s) x y).
Lemma owner_of g p : in_group w h p -> owner (fst g * w + fst p) (snd g * h + snd p) = g /\ (fst g * w + fst p) mod w = fst p /\ (snd g * h + snd p) mod h = snd p.
Proof.
  intros (X & Y). unfold owner. rewrite !(Z.add_comm (_ * _)), !Z.div_add, !Z.mod_add, !Z.div_small, !Z.mod_small by lia. destruct g; cbn. repeat split; lia.
Qed.
Lemma consistent_start : consistent (before im).
Proof. unfold consistent, before. cbn. repeat split; try discriminate. intros x y _. left. reflexivity. Qed.
(* what has been settled stays *)
Lemma frozen s e x y : allowed s e -> storing s (owner x y) = true -> storing (occur s e) (owner x y) = true /\ tile (occur s e) (owner x y) = tile s (owner x y).
Proof.
  intros A S. destruct e as [g p|g p]; cbn [GlTile.occur storing tile].
  - destruct A as (_ & N). split; [exact S|]. apply put_other. intros E. rewrite E in S. congruence.
  - split; [|reflexivity]. destruct (pair_dec (owner x y) g) as [->|N]; [apply put_same|]. rewrite put_other by exact N. exact S.
Qed.
Lemma blurred_frozen s e x y : allowed s e -> storing s (owner x y) = true -> blurred (occur s e) x y = blurred s x y.
Proof. intros A S. destruct (frozen s e x y A S) as (_ & T). unfold blurred, tile_value. rewrite T. reflexivity. Qed.
Lemma settled_step s e x y : allowed s e -> settled s x y -> settled (occur s e) x y.
Proof.
  intros A (S & V). destruct (frozen s e x y A S) as (S' & T). split; [exact S'|]. rewrite (blurred_frozen s e x y A S). rewrite <- V.
  destruct e as [g p|g p]; cbn [GlTile.occur mask]; [reflexivity|]. rewrite store_texel.
  destruct (within (mask s) (fst g * w + fst p) (snd g * h + snd p) && (x =? fst g * w + fst p) && (y =? snd g * h + snd p)) eqn:E; [|reflexivity].
  apply andb_true_iff in E. destruct E as (E & E2). apply andb_true_iff in E. destruct E as (_ & E1). apply Z.eqb_eq in E1, E2.
  destruct A as (G & _). destruct (owner_of g p G) as (O & M1 & M2). rewrite V. unfold blurred. rewrite E1, E2, O, M1, M2. reflexivity.
Qed.
Lemma result_settles s g p : allowed s (Result g p) -> within (mask s) (fst g * w + fst p) (snd g * h + snd p) = true -> settled (occur s (Result g p)) (fst g * w + fst p) (snd g * h + snd p).
Proof.
  intros (G & _) I. destruct (owner_of g p G) as (O & M1 & M2). unfold settled, blurred. cbn [GlTile.occur storing mask]. rewrite O, put_same. split; [reflexivity|].
  rewrite store_texel, I, !Z.eqb_refl, M1, M2. reflexivity.
Qed.
Lemma step_consistent s e : allowed s e -> consistent s -> consistent (occur s e).
Proof.
  intros A ((C & R) & M & T). split; [|split].
  - destruct e as [g p|g p]; cbn [GlTile.occur mask]; [tauto|]. rewrite store_cols, store_rows. tauto.
  - intros x y I. destruct (M x y I) as [E|S]; [|right; apply settled_step; assumption].
    destruct e as [g p|g p].
    + left. exact E.
    + destruct (Z.eq_dec x (fst g * w + fst p)) as [->|N1]; [destruct (Z.eq_dec y (snd g * h + snd p)) as [->|N2]|].
      * right. apply result_settles; [exact A|]. rewrite (within_size im) by assumption. exact I.
      * left. rewrite <- E. cbn [GlTile.occur mask]. rewrite store_texel. rewrite (proj2 (Z.eqb_neq y _)) by exact N2. rewrite andb_false_r. reflexivity.
      * left. rewrite <- E. cbn [GlTile.occur mask]. rewrite store_texel. rewrite (proj2 (Z.eqb_neq x _)) by exact N1. rewrite andb_false_r. reflexivity.
  - assert (OLD : forall g p v, tile s g p = Some v -> let x := fst g * w + fst p in let y := snd g * h + snd p in v = image_load im x y \/ within im x y = true /\ owner x y <> g /\ settled (occur s e) x y /\ v = texel (mask (occur s e)) x y).
    { intros g p v E x y. destruct (T g p v E) as [L|(I & N & S & V)]; [left; exact L|]. right. fold x y in I, N, S, V. pose proof (settled_step s e x y A S) as S'. repeat split; try assumption; try apply S'.
      rewrite V. destruct S as (St & ->). destruct S' as (_ & ->). symmetry. apply blurred_frozen; assumption. }
    intros g p v E. destruct e as [g' p'|g' p']; [|apply OLD; exact E].
    cbn [GlTile.occur tile] in E. destruct (pair_dec g g') as [->|Ng]; [|rewrite put_other in E by exact Ng; apply OLD; exact E].
    rewrite put_same in E. destruct (pair_dec p p') as [->|Np]; [|rewrite put_other in E by exact Np; apply OLD; exact E].
    rewrite put_same in E. injection E as <-. cbv zeta. set (x := fst g' * w + fst p'). set (y := snd g' * h + snd p').
    destruct (within im x y) eqn:I.
    + assert (L1 : image_load (mask s) x y = texel (mask s) x y) by (unfold image_load; rewrite (within_size im) by assumption; rewrite I; reflexivity).
      assert (L2 : image_load im x y = texel im x y) by (unfold image_load; rewrite I; reflexivity). rewrite L1, L2.
      destruct (M x y I) as [E|S]; [left; exact E|]. right. split; [reflexivity|]. split; [|split; [apply settled_step; assumption|reflexivity]].
      intro O. destruct S as (St & _). rewrite O in St. destruct A as (_ & N). congruence.
    + left. unfold image_load. rewrite (within_size im) by assumption. rewrite I. reflexivity.
Qed.
Lemma tile_grows s e g q : tile s g q <> None -> tile (occur s e) g q <> None.
Proof.
  intros N. destruct e as [g' p'|g' p']; cbn [GlTile.occur tile]; [|exact N]. destruct (pair_dec g g') as [->|D]; [|rewrite put_other by exact D; exact N].
  rewrite put_same. destruct (pair_dec q p') as [->|D]; [rewrite put_same; discriminate|rewrite put_other by exact D; exact N].
Qed.
Lemma history_settled : forall es s s', history es s s' -> consistent s -> consistent s' /\ (forall x y, settled s x y -> settled s' x y) /\ (forall g q, tile s g q <> None -> tile s' g q <> None) /\
  forall g p, In (Result g p) es -> in_group w h p /\ (forall q, in_tile q -> tile s' g q <> None) /\ (within im (fst g * w + fst p) (snd g * h + snd p) = true -> settled s' (fst g * w + fst p) (snd g * h + snd p)).
Proof.
  induction 1 as [s|e es s s' A Hs IH]; intro C.
  - split; [exact C|]. split; [intros x y S; exact S|]. split; [intros g q N; exact N|]. intros g p [].
  - destruct (IH (step_consistent s e A C)) as (C' & S' & T' & R'). split; [exact C'|]. split; [|split].
    + intros x y S. apply S'. apply settled_step; assumption.
    + intros g q N. apply T'. apply tile_grows. exact N.
    + intros g p [->|I]; [|apply R'; exact I]. destruct A as (G & A). split; [exact G|]. split.
      * intros q Q. apply T'. apply tile_grows. apply A. exact Q.
      * intro In. apply S'. apply result_settles; [split; assumption|]. destruct C as ((Cc & Cr) & _). rewrite (within_size im) by assumption. exact In.
Qed.
(* a result is the median of pixels, each as it was or as it becomes; those of its own group as they were *)
Lemma race es s' g p : history es (before im) s' -> In (Result g p) es -> within im (fst g * w + fst p) (snd g * h + snd p) = true ->
  exists f, texel (mask s') (fst g * w + fst p) (snd g * h + snd p) = median_blur k f (fst g * w + fst p) (snd g * h + snd p) /\
    forall x y, Z.abs (x - (fst g * w + fst p)) <= k / 2 -> Z.abs (y - (snd g * h + snd p)) <= k / 2 ->
      f (x, y) = image_load im x y \/ owner x y <> g /\ f (x, y) = image_load (mask s') x y.
Proof.
  intros Hs I In. destruct (history_settled _ _ _ Hs consistent_start) as (((Cc & Cr) & _ & CT) & _ & _ & R). destruct (R g p I) as (G & T & S). destruct (S In) as (_ & V).
  destruct (owner_of g p G) as (O & M1 & M2).
  exists (fun q => tile_value s' g (fst q - fst g * w, snd q - snd g * h)). split.
  - rewrite V. unfold blurred, median_shared. rewrite O, M1, M2. apply blur_ext. intros dx dy DX DY. f_equal. cbn [fst snd]. f_equal; ring.
  - intros x y X Y. unfold tile_value. cbn [fst snd]. set (q := (x - fst g * w, y - snd g * h)).
    assert (Q : in_tile q). { unfold GlTile.in_tile, q, in_group in *. cbn [fst snd]. lia. }
    destruct (tile s' g q) as [v|] eqn:E; [|exfalso; apply (T q Q); exact E].
    assert (EX : fst g * w + fst q = x) by (unfold q; cbn; lia). assert (EY : snd g * h + snd q = y) by (unfold q; cbn; lia).
    pose proof (CT g q v E) as D. cbv zeta in D. rewrite EX, EY in D. destruct D as [D|(I' & N & _ & D)]; [left; exact D|]. right. split; [exact N|]. rewrite D. unfold image_load. rewrite (within_size im) by assumption. rewrite I'. reflexivity.
Qed.
Lemma inside es s' g p : history es (before im) s' -> In (Result g p) es -> within im (fst g * w + fst p) (snd g * h + snd p) = true ->
  (forall x y, within im x y = true -> Z.abs (x - (fst g * w + fst p)) <= k / 2 -> Z.abs (y - (snd g * h + snd p)) <= k / 2 -> (x / w, y / h) = g) ->
  texel (mask s') (fst g * w + fst p) (snd g * h + snd p) = median_direct k im (fst g * w + fst p) (snd g * h + snd p).
Proof.
  intros Hs I In A. destruct (race es s' g p Hs I In) as (f & -> & F). unfold median_direct. apply blur_ext. intros dx dy DX DY.
  destruct (F (fst g * w + fst p + dx) (snd g * h + snd p + dy)) as [E|(N & E)]; [lia|lia|exact E|]. cbn [fst snd].
  destruct (within im (fst g * w + fst p + dx) (snd g * h + snd p + dy)) eqn:I'.
  - exfalso. apply N. apply A; [exact I'|lia|lia].
  - rewrite E. destruct (history_settled _ _ _ Hs consistent_start) as (((Cc & Cr) & _) & _). unfold image_load. rewrite (within_size im) by assumption. rewrite I'. reflexivity.
Qed.
End PostProc.

(* one group after the other *)
Section Groups.
Variables (w h k : Z).
Hypotheses (W : 0 < w) (H : 0 < h) (K : 0 <= k).
Notation occur := (occur w h k).
Notation allowed := (allowed w h k).
Notation history := (history w h k).
Lemma history_app : forall a b s1 s2 s3, history a s1 s2 -> history b s2 s3 -> history (a ++ b) s1 s3.
Proof. intros a b s1 s2 s3 HA HB. induction HA as [s|e es s s' A HA IH]; [exact HB|]. cbn [app]. apply history_cons; [exact A|]. apply IH. exact HB. Qed.
Lemma fetches g : forall ps s, storing s g = false -> (forall p, In p ps -> in_tile w h k p) -> exists s', history (map (Fetch g) ps) s s' /\ mask s' = mask s /\ storing s' = storing s /\
  (forall p, In p ps -> tile s' g p = Some (image_load (mask s) (fst g * w + fst p) (snd g * h + snd p))) /\ (forall p, ~ In p ps -> tile s' g p = tile s g p).
Proof.
  induction ps as [|p ps IH]; intros s N I.
  - exists s. cbn. repeat split; try tauto. apply history_nil.
  - destruct (IH (occur s (Fetch g p))) as (s' & Hs & M & S & T & T'); [exact N|intros q Q; apply I; right; exact Q|]. exists s'. cbn [map].
    split; [apply history_cons; [split; [apply I; left; reflexivity|exact N]|exact Hs]|]. split; [rewrite M; reflexivity|]. split; [rewrite S; reflexivity|]. split.
    + intros q [<-|Q]; [|apply T; exact Q]. destruct (in_dec pair_dec p ps) as [Ip|Ip]; [apply T; exact Ip|]. rewrite T' by exact Ip. cbn [GlTile.occur tile]. rewrite !put_same. reflexivity.
    + intros q Q. rewrite T' by (intro; apply Q; right; assumption). cbn [GlTile.occur tile]. rewrite put_same. apply put_other. intros ->. apply Q. left. reflexivity.
Qed.
Lemma results g im0 : forall ps s, (forall p, In p ps -> in_group w h p) -> (forall q, in_tile w h k q -> tile s g q = Some (image_load im0 (fst g * w + fst q) (snd g * h + snd q))) ->
  exists s', history (map (Result g) ps) s s' /\ cols (mask s') = cols (mask s) /\ rows (mask s') = rows (mask s) /\ (forall g', g' <> g -> storing s' g' = storing s g') /\
    (forall p, In p ps -> within (mask s) (fst g * w + fst p) (snd g * h + snd p) = true -> texel (mask s') (fst g * w + fst p) (snd g * h + snd p) = median_direct k im0 (fst g * w + fst p) (snd g * h + snd p)) /\
    (forall x y, (forall p, In p ps -> (x, y) <> (fst g * w + fst p, snd g * h + snd p)) -> texel (mask s') x y = texel (mask s) x y).
Proof.
  induction ps as [|p ps IH]; intros s I T.
  - exists s. cbn. repeat split; try tauto. apply history_nil.
  - assert (V : median_shared k (tile_value s g) (fst p) (snd p) = median_direct k im0 (fst g * w + fst p) (snd g * h + snd p)).
    { unfold median_shared, median_direct. apply blur_ext. intros dx dy DX DY. unfold tile_value. destruct (I p ltac:(left; reflexivity)) as (PX & PY). rewrite T by (unfold in_tile; cbn [fst snd]; lia). cbn [fst snd]. f_equal; ring. }
    destruct (IH (occur s (Result g p))) as (s' & Hs & C & R & S & E & U); [intros q Q; apply I; right; exact Q|exact T|]. exists s'. cbn [map].
    split; [apply history_cons; [split; [apply I; left; reflexivity|intros q Q; rewrite T by exact Q; discriminate]|exact Hs]|].
    cbn [GlTile.occur mask] in C, R. rewrite store_cols in C. rewrite store_rows in R. split; [exact C|]. split; [exact R|]. split.
    { intros g' N. rewrite S by exact N. cbn [GlTile.occur storing]. apply put_other. exact N. }
    assert (SAME : forall x y, texel (mask (occur s (Result g p))) x y = if within (mask s) (fst g * w + fst p) (snd g * h + snd p) && (x =? fst g * w + fst p) && (y =? snd g * h + snd p) then median_direct k im0 (fst g * w + fst p) (snd g * h + snd p) else texel (mask s) x y).
    { intros x y. cbn [GlTile.occur mask]. rewrite store_texel, V. reflexivity. }
    assert (WS : forall x y, within (mask (occur s (Result g p))) x y = within (mask s) x y) by (intros x y; cbn [GlTile.occur mask]; apply within_size; [apply store_cols|apply store_rows]).
    split.
    + intros q Q In. destruct (in_dec pair_dec q ps) as [Iq|Iq]; [apply E; [exact Iq|rewrite WS; exact In]|]. destruct Q as [<-|Q]; [|contradiction].
      rewrite U. { rewrite SAME, In, !Z.eqb_refl. reflexivity. }
      intros q Q D. apply pair_equal_spec in D. apply Iq. replace p with q; [exact Q|]. destruct p, q; cbn in D. f_equal; lia.
    + intros x y N. rewrite U by (intros q Q; apply N; right; exact Q). rewrite SAME.
      destruct (within (mask s) (fst g * w + fst p) (snd g * h + snd p) && (x =? fst g * w + fst p) && (y =? snd g * h + snd p)) eqn:B; [|reflexivity].
      apply andb_true_iff in B. destruct B as (B & B2). apply andb_true_iff in B. destruct B as (_ & B1). apply Z.eqb_eq in B1, B2. exfalso. apply (N p); [left; reflexivity|]. congruence.
Qed.
Lemma group_run g s : storing s g = false -> exists s', history (group_events w h k g) s s' /\ cols (mask s') = cols (mask s) /\ rows (mask s') = rows (mask s) /\ (forall g', g' <> g -> storing s' g' = storing s g') /\
  (forall x y, within (mask s) x y = true -> texel (mask s') x y = if (x / w =? fst g) && (y / h =? snd g) then median_direct k (mask s) x y else texel (mask s) x y).
Proof.
  intro N. assert (B : 0 <= k / 2) by (apply Z.div_pos; lia).
  destruct (fetches g (map (fun p => (snd p, fst p)) (grid (- (k / 2)) (h + k / 2 + k / 2) (- (k / 2)) (w + k / 2 + k / 2))) s N) as (s1 & H1 & M1 & S1 & T1 & _).
  { intros q Q. apply in_map_iff in Q. destruct Q as ((a & b) & <- & Q). apply in_grid in Q. unfold in_tile. cbn [fst snd] in *. lia. }
  destruct (results g (mask s) (map (fun p => (snd p, fst p)) (grid 0 h 0 w)) s1) as (s2 & H2 & C2 & R2 & S2 & E2 & U2).
  { intros q Q. apply in_map_iff in Q. destruct Q as ((a & b) & <- & Q). apply in_grid in Q. unfold in_group. cbn [fst snd] in *. lia. }
  { intros q Q. apply T1. apply in_map_iff. exists (snd q, fst q). split; [destruct q; reflexivity|]. apply in_grid. unfold in_tile in Q. cbn [fst snd]. lia. }
  exists s2. rewrite M1 in *. rewrite S1 in S2. split; [apply (history_app _ _ s s1 s2); assumption|]. split; [exact C2|]. split; [exact R2|]. split; [exact S2|].
  intros x y I. destruct (Z.eqb_spec (x / w) (fst g)) as [E|E]; [destruct (Z.eqb_spec (y / h) (snd g)) as [E'|E']|]; cbn [andb].
  - pose proof (Z.div_mod x w ltac:(lia)) as D. pose proof (Z.mod_pos_bound x w W). pose proof (Z.div_mod y h ltac:(lia)) as D'. pose proof (Z.mod_pos_bound y h H).
    assert (X : x = fst g * w + fst (x mod w, y mod h)) by (cbn [fst]; rewrite <- E; lia). assert (Y : y = snd g * h + snd (x mod w, y mod h)) by (cbn [snd]; rewrite <- E'; lia).
    pose proof (E2 (x mod w, y mod h)) as Q. rewrite <- X, <- Y in Q. apply Q; [|exact I].
    apply in_map_iff. exists (y mod h, x mod w). split; [reflexivity|]. apply in_grid. cbn [fst snd]. lia.
  - apply U2. intros q Q D. apply in_map_iff in Q. destruct Q as ((a & b) & <- & Q). apply in_grid in Q. apply pair_equal_spec in D. cbn [fst snd] in *. destruct D as (_ & D). apply E'. rewrite D, Z.add_comm, Z.div_add, Z.div_small by lia. reflexivity.
  - apply U2. intros q Q D. apply in_map_iff in Q. destruct Q as ((a & b) & <- & Q). apply in_grid in Q. apply pair_equal_spec in D. cbn [fst snd] in *. destruct D as (D & _). apply E. rewrite D, Z.add_comm, Z.div_add, Z.div_small by lia. reflexivity.
Qed.
End Groups.

(* two groups of the default size, side by side *)
Definition stripe : image := {| cols := 24; rows := 8; texel := fun x y => if (7 <=? x) && (x <=? 11) || (x =? 12) && (y =? 0) then 255 else 0 |}.
Definition shorter : image := {| cols := 24; rows := 8; texel := fun x y => if (7 <=? x) && (x <=? 11) then 255 else 0 |}.
Lemma right_group : forallb (fun p => median_direct 9 stripe (fst p) (snd p) =? 0) (list_prod (zrange 12 4) (zrange 0 8)) = true.
Proof. vm_compute. reflexivity. Qed.
Lemma order_matters : exists s1 s2, history 12 8 9 (group_events 12 8 9 (0, 0) ++ group_events 12 8 9 (1, 0)) (before stripe) s1 /\
  history 12 8 9 (group_events 12 8 9 (1, 0) ++ group_events 12 8 9 (0, 0)) (before stripe) s2 /\ texel (mask s1) 11 4 = 255 /\ texel (mask s2) 11 4 = 0.
Proof.
  destruct (group_run 12 8 9 ltac:(lia) ltac:(lia) ltac:(lia) (0, 0) (before stripe) eq_refl) as (a1 & HA1 & CA1 & RA1 & SA1 & TA1).
  destruct (group_run 12 8 9 ltac:(lia) ltac:(lia) ltac:(lia) (1, 0) a1) as (a2 & HA2 & _ & _ & _ & TA2); [rewrite SA1 by discriminate; reflexivity|].
  destruct (group_run 12 8 9 ltac:(lia) ltac:(lia) ltac:(lia) (1, 0) (before stripe) eq_refl) as (b1 & HB1 & CB1 & RB1 & SB1 & TB1).
  destruct (group_run 12 8 9 ltac:(lia) ltac:(lia) ltac:(lia) (0, 0) b1) as (b2 & HB2 & _ & _ & _ & TB2); [rewrite SB1 by discriminate; reflexivity|].
  exists a2, b2. split; [apply (history_app _ _ _ _ _ _ _ _ HA1 HA2)|]. split; [apply (history_app _ _ _ _ _ _ _ _ HB1 HB2)|]. cbn [mask before] in *. split.
  - rewrite TA2 by (rewrite (within_size stripe) by assumption; reflexivity). change (11 / 12 =? fst (1, 0)) with false. cbn [andb]. rewrite TA1 by reflexivity. vm_compute. reflexivity.
  - rewrite TB2 by (rewrite (within_size stripe) by assumption; reflexivity). change ((11 / 12 =? fst (0, 0)) && (4 / 8 =? snd (0, 0))) with true. cbv iota.
    transitivity (median_direct 9 shorter 11 4); [|vm_compute; reflexivity].
    unfold median_direct. apply blur_ext. change (9 / 2) with 4. intros dx dy DX DY. cbn [fst snd]. unfold image_load. rewrite (within_size stripe (mask b1)) by assumption.
    change (within shorter (11 + dx) (4 + dy)) with (within stripe (11 + dx) (4 + dy)). destruct (within stripe (11 + dx) (4 + dy)) eqn:I; [|reflexivity].
    rewrite TB1 by exact I. apply within_spec in I. cbn [cols rows stripe] in I. cbn [fst snd].
    replace ((4 + dy) / 8 =? 0) with true by (symmetry; apply Z.eqb_eq, Z.div_small; lia). rewrite andb_true_r.
    destruct (Z.eqb_spec ((11 + dx) / 12) 1) as [E|E].
    + assert (X : 12 <= 11 + dx). { pose proof (Z.div_mod (11 + dx) 12 ltac:(lia)). pose proof (Z.mod_pos_bound (11 + dx) 12 ltac:(lia)). lia. }
      pose proof right_group as RG. rewrite forallb_forall in RG. specialize (RG (11 + dx, 4 + dy)). cbn [fst snd] in RG. rewrite Z.eqb_eq in RG. rewrite RG by (apply in_prod; apply in_zrange; lia).
      cbn [texel shorter]. rewrite (proj2 (Z.leb_gt (11 + dx) 11)) by lia. rewrite andb_false_r. reflexivity.
    + assert (X : 11 + dx <= 11). { destruct (Z_lt_dec 11 (11 + dx)); [|lia]. exfalso. apply E. symmetry. apply (Z.div_unique (11 + dx) 12 1 (11 + dx - 12)); lia. }
      cbn [texel stripe shorter]. rewrite (proj2 (Z.eqb_neq (11 + dx) 12)) by lia. cbn [andb]. rewrite orb_false_r. reflexivity.
Qed.
