From Coq Require Import ZArith List Bool Lia.
From Verif Require Import Model.GtIndex Spec.GtIndex Proofs.GtIndex.
Import ListNotations.
Open Scope Z_scope.

(* the digits behind the first occurrence of the prefix are read *)
Theorem C118_key : forall prefix cnt s q, (forall r, (r < q)%nat -> ~ occurs prefix s r) -> occurs prefix s q -> len s < 2 ^ 64 -> 0 <= cnt <= 18 -> digits (firstn (Z.to_nat cnt) (skipn (q + length prefix) s)) ->
  key prefix cnt s = Some (spells (firstn (Z.to_nat cnt) (skipn (q + length prefix) s))).
Proof. exact key_spec. Qed.
Print Assumptions C118_key.

(* PETS: the ground truth of a frame is the last file with its number; there is none for other frames *)
Theorem C118_pets : forall paths keys, map (key image_ 4) paths = map Some keys -> exists l, pets 0 paths [] = Some l /\
  forall n, match lookup l n with Some k => exists j, k = Z.of_nat j /\ last_place keys n j | None => forall j, nth_error keys j <> Some n end.
Proof.
  intros paths keys E. assert (X := pets_spec paths 0 []). assert (A : all_some (map (key image_ 4) paths) = Some keys). { rewrite E. clear. induction keys as [|a l IH]; cbn [map all_some]; [reflexivity|rewrite IH; reflexivity]. } rewrite A in X. destruct (pets 0 paths []) as [l|]; [|contradiction]. exists l. split; [reflexivity|]. intros n. specialize (X n). destruct (lookup l n) as [k|].
  - destruct X as [(j & -> & P)|(_ & X)]; [exists j; split; [lia|exact P]|discriminate].
  - apply X.
Qed.
Print Assumptions C118_pets.
(* but a file without the prefix gets a number as well, of what is behind the fifth character of its path *)
Theorem C118_pets_other_refuted : exists s, (forall q, ~ occurs image_ s q) /\ pets 0 [s] [] = Some [(0, 0)].
Proof.
  (* gt/Thumbs.db *)
  exists [103; 116; 47; 84; 104; 117; 109; 98; 115; 46; 100; 98]. split; [|reflexivity]. intros q Q. assert (X := find_spec image_ [103; 116; 47; 84; 104; 117; 109; 98; 115; 46; 100; 98]). change (find image_ [103; 116; 47; 84; 104; 117; 109; 98; 115; 46; 100; 98]) with (@None Z) in X. exact (X q Q).
Qed.
Print Assumptions C118_pets_other_refuted.
(* and a directory with the prefix in its name hides all numbers: image_7/image_0012 and image_7/image_0034 are both frame 7 *)
Theorem C118_pets_directory_refuted : exists a b l, skipn 14 a = [48; 48; 49; 50] /\ skipn 14 b = [48; 48; 51; 52] /\ occurs image_ a 8 /\ occurs image_ b 8 /\ pets 0 [a; b] [] = Some l /\ lookup l 12 = None /\ lookup l 34 = None /\ lookup l 7 = Some 1.
Proof.
  exists (image_ ++ [55; 47] ++ image_ ++ [48; 48; 49; 50]), (image_ ++ [55; 47] ++ image_ ++ [48; 48; 51; 52]). eexists. split; [reflexivity|]. split; [reflexivity|]. split; [|split; [|split; [reflexivity|repeat split; reflexivity]]]; apply occurs_slice; (split; [vm_compute; repeat constructor|reflexivity]).
Qed.
Print Assumptions C118_pets_directory_refuted.

(* Wallflower: accepted only with the script, one ground truth and inputs; the inputs are the other files, in order, and .bmp is first seen at their end *)
Theorem C118_wallflower : forall sp paths st, wallflower_parse sp paths = Some st -> (forall s, In s paths -> 4 <= len s < 2 ^ 64) ->
  In sp paths /\ (exists s n, gts st = [s] /\ In s paths /\ s <> sp /\ (exists q, occurs hand_segmented_ s q) /\ key hand_segmented_ 5 s = Some n /\ index st = [(n, 0)]) /\
  inputs st <> [] /\ (forall f, (forall s, f s = true <-> s <> sp /\ forall q, ~ occurs hand_segmented_ s q) -> inputs st = filter f paths) /\
  forall s, In s (inputs st) -> exists q, (q + 4 = length s)%nat /\ occurs bmp s q /\ forall r, (r < q)%nat -> ~ occurs bmp s r.
Proof.
  intros sp paths st E L. unfold wallflower_parse in E. destruct (wallflower sp paths _) as [st'|] eqn:W; [|discriminate]. destruct (script st') eqn:S, (Nat.eqb_spec (length (inputs st')) 0) as [I|I], (Nat.eqb_spec (length (gts st')) 1) as [G|G]; cbn [andb negb] in E; try discriminate. injection E as <-.
  destruct (wallflower_spec sp paths _ _ W) as (A & B & C & (l & D1 & D2 & D3) & F). cbn [inputs gts index script app length] in *. split; [destruct (proj1 C S) as [X|X]; [discriminate|exact X]|]. split; [|split; [intros X; apply I; rewrite X; reflexivity|split]].
  - rewrite <- B in D2, D3. destruct (gts st') as [|s [|? ?]] eqn:GS; try discriminate G. exists s. destruct (D3 0%nat s eq_refl) as (n & K & N). exists n. assert (X : In s (filter (is_gt sp) paths)) by (rewrite <- B; left; reflexivity). apply filter_In in X. destruct X as [X Y]. apply is_gt_iff in Y. split; [reflexivity|]. split; [exact X|]. split; [apply Y|]. split; [apply Y|]. split; [exact K|]. rewrite D1, app_nil_r. destruct l as [|e [|? ?]]; try discriminate D2. cbn in N. injection N as ->. reflexivity.
  - intros f Hf. rewrite A. clear - Hf. induction paths as [|s r IH]; cbn [filter]; [reflexivity|]. rewrite IH. destruct (is_input sp s) eqn:X, (f s) eqn:Y; try reflexivity; exfalso.
    + apply is_input_iff in X. apply Hf in X. congruence.
    + apply Hf in Y. apply is_input_iff in Y. congruence.
  - intros s Hs. rewrite A in Hs. apply filter_In in Hs. destruct Hs as [Hs X]. apply (bmp_last s (L s Hs)). exact (F s Hs X).
Qed.
Print Assumptions C118_wallflower.

(* LITIV 2018: a path with five digits in a row at one place only is that of the frame they spell *)
Theorem C118_matcher : forall i s p, 0 <= i < 100000 -> (p + 5 <= length s)%nat -> digits (firstn 5 (skipn p s)) -> (forall q, (q + 5 <= length s)%nat -> digits (firstn 5 (skipn q s)) -> q = p) ->
  matcher i s = true <-> spells (firstn 5 (skipn p s)) = i.
Proof. intros i s p H L D U. apply matcher_iff; [exact H|]. split; [exact L|split; [exact D|exact U]]. Qed.
Print Assumptions C118_matcher.
(* paths without five digits in a row are of no frame, such as the empty ones that the subset leaves *)
Theorem C118_no_digits : forall i s, 0 <= i < 100000 -> (forall q, (q + 5 <= length s)%nat -> ~ digits (firstn 5 (skipn q s))) -> matcher i s = false.
Proof.
  intros i s H N. unfold matcher. destruct (five_digits i ltac:(lia)) as [F1 F2]. rewrite find_none; [reflexivity|]. intros q Q. apply occurs_slice in Q. rewrite F2 in Q. destruct Q as [Q1 Q2]. apply (N q Q1). rewrite Q2. exact F1.
Qed.
Print Assumptions C118_no_digits.
(* the packets with a ground truth in any stream have one entry each, in order, and those without have none *)
Theorem C118_packets : forall streams subset, let st := packets streams 0 subset ([], []) in
  fst st = filter got (map (packet streams) subset) /\
  forall n, 0 <= n -> match lookup (snd st) n with
    | Some k => exists i, nth_error subset (Z.to_nat n) = Some i /\ got (packet streams i) = true /\ 0 <= k < Z.of_nat (length (fst st)) /\ nth_error (fst st) (Z.to_nat k) = Some (packet streams i) /\ k = Z.of_nat (length (filter got (map (packet streams) (firstn (Z.to_nat n) subset))))
    | None => forall i, nth_error subset (Z.to_nat n) = Some i -> got (packet streams i) = false
    end.
Proof.
  intros streams subset. cbv zeta. match goal with |- fst ?t = _ /\ _ => assert (X : fst t = _ /\ _ /\ forall j, lookup (snd t) (0 + Z.of_nat j) = _) by exact (packets_spec streams subset 0 [] [] (fun _ _ => eq_refl)); revert X; generalize t end. intros st (A & _ & C). cbn [app length] in *. split; [exact A|]. intros n Hn. specialize (C (Z.to_nat n)). replace (0 + Z.of_nat (Z.to_nat n)) with n in C by lia. rewrite C, A. destruct (nth_error subset (Z.to_nat n)) as [i|] eqn:E; [|intros i H; discriminate]. destruct (got (packet streams i)) eqn:G; [|intros j H; injection H as <-; exact G].
  exists i. split; [reflexivity|]. split; [exact G|]. change (Z.of_nat 0) with 0. rewrite Z.add_0_l. apply nth_error_split in E. destruct E as (l1 & l2 & -> & L). rewrite <- L, firstn_app, firstn_all, Nat.sub_diag. cbn [firstn]. rewrite app_nil_r, map_app, filter_app. cbn [map filter]. rewrite G, Nat2Z.id. split; [rewrite app_length; cbn [length]; lia|]. split; [|reflexivity]. rewrite nth_error_app2 by lia. rewrite Nat.sub_diag. reflexivity.
Qed.
Print Assumptions C118_packets.
(* and such a packet is one with a matching path in at least one stream *)
Theorem C118_got : forall streams i, got (packet streams i) = true <-> exists stream s, In stream streams /\ In s stream /\ matcher i s = true.
Proof.
  intros streams i. unfold got, packet. rewrite existsb_exists. split.
  - intros (o & O & X). apply in_map_iff in O. destruct O as (l & <- & L). destruct (List.find (matcher i) l) as [s|] eqn:F; [|discriminate]. apply find_some in F. exists l, s. tauto.
  - intros (l & s & L & I & M). exists (List.find (matcher i) l). split; [apply in_map; exact L|]. destruct (List.find (matcher i) l) eqn:F; [reflexivity|]. rewrite (List.find_none _ _ F s I) in M. discriminate.
Qed.
Print Assumptions C118_got.
(* the clean list has for each frame of the subset the first path with its number, or the empty path *)
Theorem C118_cleaned : forall subset paths, length (cleaned subset paths) = length subset /\ forall k i, nth_error subset k = Some i ->
  (exists s before after, nth_error (cleaned subset paths) k = Some s /\ paths = before ++ s :: after /\ matcher i s = true /\ forall b, In b before -> matcher i b = false) \/
  (nth_error (cleaned subset paths) k = Some [] /\ forall s, In s paths -> matcher i s = false).
Proof.
  intros subset paths. unfold cleaned. split; [apply map_length|]. intros k i E. rewrite (map_nth_error _ _ _ E). clear E. induction paths as [|s r IH]; cbn [List.find]; [right; split; [reflexivity|intros ? []]|].
  destruct (matcher i s) eqn:M; [left; exists s, [], r; repeat split; [exact M|intros ? []]|]. destruct IH as [(t & b & a & A & -> & B & C)|[A B]].
  - left. exists t, (s :: b), a. split; [exact A|]. split; [reflexivity|]. split; [exact B|]. intros x [<-|X]; [exact M|exact (C x X)].
  - right. split; [exact A|]. intros x [<-|X]; [exact M|exact (B x X)].
Qed.
Print Assumptions C118_cleaned.
(* but digits of a directory count as well: below 00003, frame 3 has the ground truth of frame 1 *)
Theorem C118_directory_refuted : exists a b, skipn 6 a = five 1 /\ skipn 6 b = five 3 /\ packet [[a; b]] 3 = [Some a] /\ packet [[a; b]] 1 = [Some a].
Proof. exists (five 3 ++ [47] ++ five 1), (five 3 ++ [47] ++ five 3). repeat split; reflexivity. Qed.
Print Assumptions C118_directory_refuted.

Example C118_ex_pets : pets 0 [[47] ++ image_ ++ [48; 48; 49; 50; 46]; image_ ++ [48; 49; 48; 48]; image_ ++ [48; 48; 49; 50]] [] = Some [(12, 2); (100, 1); (12, 0)].
Proof. reflexivity. Qed.
Example C118_ex_wallflower : option_map (fun st => (length (inputs st), index st)) (wallflower_parse [115] [[97; 46; 98; 109; 112]; hand_segmented_ ++ [48; 48; 50; 53; 51; 46]; [98; 46; 98; 109; 112]; [115]]) = Some (2%nat, [(253, 0)]).
Proof. reflexivity. Qed.
Example C118_ex_packets : snd (packets [[five 7; five 9]; [five 9; five 12]] 0 [6; 7; 8; 9; 12] ([], [])) = [(4, 2); (3, 1); (1, 0)].
Proof. reflexivity. Qed.
Example C118_ex_cleaned : cleaned [7; 8] [five 9; 47 :: five 7] = [47 :: five 7; []].
Proof. reflexivity. Qed.
