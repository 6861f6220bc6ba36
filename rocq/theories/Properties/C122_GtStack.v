From Coq Require Import ZArith List Bool Lia.
From Verif Require Import Model.GtStack Spec.GtStack Proofs.GtStack.
Import ListNotations.
Open Scope Z_scope.

(* a mask is returned just if all ground truths have a size of the dataset and scaling loses less than a row in all of them together *)
Theorem C122_returned : forall rs s input l out, 0 < den s -> 0 < num s -> 0 < rows input -> 0 < scaled s (rows input) -> l <> [] ->
  (exists m, raw_gt rs s input l out = Some m) <-> (forall i, In i l -> known i = true) /\ Z.of_nat (length l) * (rows input * num s mod den s) < den s.
Proof.
  intros rs s input l out D P R H N. assert (SM := scaled_multiple s (rows input) (Z.of_nat (length l)) D ltac:(lia) ltac:(lia) ltac:(lia)). unfold raw_gt. destruct l as [|i0 l0]; [congruence|]. set (l := i0 :: l0) in *. rewrite fit_size. split.
  - intros [m E]. destruct (known i0); [|discriminate]. cbn [negb] in E. destruct (stack _ _ _ _ _ _) as [f|] eqn:S in E; [|discriminate]. split; [exact (stack_known _ _ _ _ _ _ S)|]. destruct (size_eqb _ _) eqn:Q in E; [|discriminate]. apply size_eqb_iff in Q. injection Q as Q. apply SM. exact Q.
  - intros [K L]. rewrite (K i0) by (left; reflexivity). cbn [negb]. destruct (stack_spec rs (input_size s input) H l 0 out K) as (f & -> & _). apply SM in L. unfold gt_size. cbn [input_size fst snd]. rewrite L. rewrite (proj2 (size_eqb_iff _ _) eq_refl). eexists. reflexivity.
Qed.
Print Assumptions C122_returned.
(* it holds the ground truths in order, one below the other, each of the size of the scaled input and only resized if it has another *)
Theorem C122_stacked : forall rs s input l out m, 0 < scaled s (rows input) -> raw_gt rs s input l out = Some m ->
  rows m = scaled s (rows input) * Z.of_nat (length l) /\ cols m = scaled s (cols input) /\
  forall k i r c, nth_error l k = Some i -> 0 <= r < scaled s (rows input) -> 0 <= c < scaled s (cols input) ->
    px m (r + scaled s (rows input) * Z.of_nat k) c = if (rows i =? scaled s (rows input)) && (cols i =? scaled s (cols input)) then px i r c else rs (scaled s (rows input), scaled s (cols input)) i r c.
Proof.
  intros rs s input l out m H E. unfold raw_gt in E. destruct l as [|i0 l0]; [discriminate|]. set (l := i0 :: l0) in *. rewrite fit_size in E. destruct (known i0); [|discriminate]. cbn [negb] in E. destruct (stack _ _ _ _ _ _) as [f|] eqn:S in E; [|discriminate]. destruct (size_eqb _ _) in E; [|discriminate]. injection E as <-. cbn [rows cols px fst snd input_size].
  split; [reflexivity|]. split; [reflexivity|]. intros k i r c N R C. destruct (stack_spec rs (input_size s input) H l 0 out (stack_known _ _ _ _ _ _ S)) as (f' & S' & _ & B). rewrite S in S'. injection S' as <-. specialize (B k i r c N R C). rewrite Z.add_0_l in B. cbn [input_size fst snd] in B. rewrite B. unfold fit, size_eqb, rows, cols, px. cbn [input_size fst snd]. destruct (_ && _); reflexivity.
Qed.
Print Assumptions C122_stacked.
(* at full size, or scaled up by a whole number, all ground truths of known sizes are returned *)
Theorem C122_whole : forall rs s input l out k, 0 < k -> 0 < den s -> num s = k * den s -> 0 < rows input -> l <> [] -> (forall i, In i l -> known i = true) -> exists m, raw_gt rs s input l out = Some m.
Proof.
  intros rs s input l out k K D E R N A. assert (X : rows input * num s = rows input * k * den s) by (rewrite E; ring). apply C122_returned; [exact D|nia|exact R| |exact N|].
  - unfold scaled. rewrite X, Z.div_mul by lia. nia.
  - split; [exact A|]. rewrite X, Z.mod_mul by lia. lia.
Qed.
Print Assumptions C122_whole.
(* but at half size, no image of this dataset with more than one ground truth has any: the last assertion fails *)
Theorem C122_half_refuted : forall rs input l out, known input = true -> (2 <= length l)%nat -> raw_gt rs {| num := 1; den := 2 |} input l out = None.
Proof.
  intros rs input l out K N. destruct (raw_gt _ _ _ _ _) as [m|] eqn:E; [exfalso|reflexivity]. unfold known in K. rewrite orb_true_iff, !andb_true_iff, !Z.eqb_eq in K.
  assert (R : rows input = 481 \/ rows input = 321) by tauto. assert (X := proj1 (C122_returned rs {| num := 1; den := 2 |} input l out ltac:(cbn; lia) ltac:(cbn; lia) ltac:(lia) ltac:(unfold scaled; cbn [num den]; destruct R as [-> | ->]; reflexivity) ltac:(destruct l; [cbn in N; lia|discriminate])) (ex_intro _ m E)). destruct X as [_ X]. cbn [num den] in X. destruct R as [R|R]; rewrite R in X; [change (481 * 1 mod 2) with 1 in X|change (321 * 1 mod 2) with 1 in X]; lia.
Qed.
Print Assumptions C122_half_refuted.

(* the check of names: there are as many folders, and the name of each is part of that of the image at its place *)
Theorem C122_names : forall inputs folders, ordered inputs folders = true <-> length folders = length inputs /\ forall k i f, nth_error inputs k = Some i -> nth_error folders k = Some f -> exists ni nf, is_name i ni /\ is_name f nf /\ part_of nf ni.
Proof.
  assert (U : forall s n, is_name s n -> n = last_name s s).
  { intros s n [N X]. destruct (last_name_acc s s) as [(a & c & q & E & S & Q & L)|[Q L]]; rewrite L.
    - destruct X as [->|(a' & c' & E' & S')]; [exfalso; apply (N c); [rewrite E; apply in_or_app; right; left; reflexivity|exact S]|]. clear L. rewrite E in E'. clear E. revert a' E'. induction a as [|x a IH]; intros [|y a'] E'; cbn [app] in E'; injection E' as E1 E2; [congruence| | |exact (IH a' E2)].
      + exfalso. apply (Q c'); [rewrite E2; apply in_or_app; right; left; reflexivity|exact S'].
      + exfalso. apply (N c); [rewrite <- E2; apply in_or_app; right; left; reflexivity|exact S].
    - destruct X as [->|(a' & c' & E' & S')]; [reflexivity|]. exfalso. apply (Q c'); [rewrite E'; apply in_or_app; right; left; reflexivity|exact S']. }
  intros inputs folders. unfold ordered. rewrite andb_true_iff, Nat.eqb_eq. split; intros [A B]; (split; [exact A|]).
  - intros k i f I F. exists (last_name i i), (last_name f f). split; [apply last_name_spec|]. split; [apply last_name_spec|]. apply contains_iff. rewrite forallb_forall in B. apply (B (i, f)). clear - I F. revert k folders I F. induction inputs as [|a l IH]; intros [|k] folders I F; try discriminate; destruct folders as [|b m]; try discriminate; cbn [nth_error combine] in *; [injection I as ->; injection F as ->; left; reflexivity|right; exact (IH k m I F)].
  - revert folders A B. induction inputs as [|i l IH]; intros [|f m] A B; try discriminate; [reflexivity|]. cbn [combine forallb fst snd]. apply andb_true_iff. split.
    + destruct (B 0%nat i f eq_refl eq_refl) as (ni & nf & I & F & P). rewrite <- (U i ni I), <- (U f nf F). apply contains_iff. exact P.
    + apply IH; [cbn [length] in A; lia|]. intros k i' f' I F. exact (B (S k) i' f' I F).
Qed.
Print Assumptions C122_names.
(* so folders of other images pass, where their name is inside of that of the image: folder 12 for image 112.jpg, and 112 for 1123.jpg *)
Theorem C122_names_refuted : exists a b f g, ordered [a; b] [f; g] = true /\ prefix g a = true /\ prefix f a = false /\ prefix g b = true /\ f <> g.
Proof. exists [49; 49; 50; 46; 106; 112; 103], [49; 49; 50; 51; 46; 106; 112; 103], [49; 50], [49; 49; 50]. repeat split; discriminate. Qed.
Print Assumptions C122_names_refuted.

Example C122_ex : option_map (fun m => (rows m, cols m, px m 481 0)) (raw_gt (fun _ i => px i) {| num := 1; den := 1 |} (481, 321, fun _ _ => 0) [(481, 321, fun _ _ => 7); (481, 321, fun _ _ => 9)] (fun _ _ => 0)) = Some (962, 321, 9).
Proof. reflexivity. Qed.
Example C122_ex_names : ordered [[47; 97; 46]; [98; 92; 99; 46]] [[97]; [46; 47; 99]] = true.
Proof. reflexivity. Qed.
