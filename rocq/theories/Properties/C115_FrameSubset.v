(* C115: subsets of frames, their temporal windows, and the packets that get evaluated. *)
From Coq Require Import ZArith List Bool Lia.
From Verif Require Import Lib.Grid Model.FrameSubset Spec.FrameSubset Proofs.FrameSubset.
Import ListNotations.
Open Scope Z_scope.

(* A file that names frames 7, 8 and 20, with a comment *)
Definition ex_lines : list line := [Index 20; Comment; Index 7; Index 8; Index 7].

(* LITIV 2018 with bLoadFrameSubset: the frames of the file, and all frames no farther than the window from one of them, in order and once; it fails only for bad lines, frames out of range, or no frame at all. *)
Theorem C115_load only total w lines : 0 <= w -> match subset_2018 true only total w lines with
  | Some (real, sub) => readable total w lines /\ increasing real /\ increasing sub /\ (forall f, In f real <-> In (Index f) lines) /\ (forall f, In f sub <-> near total w lines f) /\ sub <> []
  | None => ~ readable total w lines \/ forall f, ~ In (Index f) lines
  end.
Proof.
  intros Hw. unfold subset_2018. destruct (Z.ltb_spec w 0); [lia|]. cbn [orb]. assert (R := read_ok total w lines Hw [] []). destruct (read total w lines [] []) as [[real sub]|]; [|left; exact R]. destruct R as (A & B & C & D & E).
  destruct sub as [|a s]; cbn [is_empty].
  - right. intros f Hf. destruct A as [_ A]. destruct (A f Hf) as [A1 _]. apply (proj2 (E f)). left. split; [exact A1|]. exists f. split; [exact Hf|lia].
  - split; [exact A|]. split; [apply B; constructor|]. split; [apply C; constructor|]. split; [intros f; rewrite D; cbn [In]; intuition|]. split; [intros f; rewrite E; cbn [In]; intuition|discriminate].
Qed.
Print Assumptions C115_load.
Example C115_ex_load : readable 22 2 ex_lines /\ subset_2018 true false 22 2 ex_lines = Some ([7; 8; 20], [5; 6; 7; 8; 9; 10; 18; 19; 20; 21]).
Proof. split; [|reflexivity]. split; [cbn; intuition discriminate|]. intros g H. cbn in H. repeat (destruct H as [H|H]; [try discriminate; injection H as <-; lia|]). destruct H. Qed.
(* With bEvalOnlyFrameSubset alone all frames are loaded, and those of the file evaluated; with neither all are both. *)
Theorem C115_only total w lines : 0 <= w -> match subset_2018 false true total w lines with
  | Some (real, sub) => readable total w lines /\ increasing real /\ (forall f, In f real <-> In (Index f) lines) /\ sub = zrange 0 total
  | None => ~ readable total w lines \/ forall f, ~ In (Index f) lines
  end.
Proof.
  intros Hw. assert (R := C115_load true total w lines Hw). unfold subset_2018 in *. destruct (Z.ltb_spec w 0); [lia|]. cbn [orb] in *. destruct (read total w lines [] []) as [[real sub]|]; [|exact R]. destruct (is_empty sub); [exact R|]. destruct R as (A & B & C & D & E & _).
  split; [exact A|]. split; [exact B|]. split; [exact D|]. destruct (insert_all_ok (zrange 0 total) sub) as [P Q]. apply same_elements; [apply P, C|apply increasing_range|]. intros y. rewrite Q, E, in_zrange. unfold near. intuition lia.
Qed.
Print Assumptions C115_only.
Theorem C115_full total w lines : 0 <= w -> subset_2018 false false total w lines = Some (zrange 0 total, zrange 0 total).
Proof. intros Hw. unfold subset_2018. destruct (Z.ltb_spec w 0); [lia|]. cbn [orb]. rewrite insert_all_range. reflexivity. Qed.
Print Assumptions C115_full.
(* VAP: the same for 2500 frames, with either flag. *)
Theorem C115_vap load only w lines : 0 <= w -> load || only = true -> subset_vap load only w lines = subset_2018 true only 2500 w lines.
Proof. intros Hw L. unfold subset_vap, subset_2018. destruct (Z.ltb_spec w 0); [lia|]. rewrite L. cbn [orb]. reflexivity. Qed.
Print Assumptions C115_vap.
(* The paths kept are those of the frames of the subset, in order. *)
Theorem C115_kept A (d : A) sub paths : sub <> [] -> (forall f, In f sub -> 0 <= f < Z.of_nat (length paths)) ->
  exists l, kept d sub paths = Some l /\ length l = length sub /\ forall i, 0 <= i < Z.of_nat (length sub) -> nth (Z.to_nat i) l d = nth (Z.to_nat (at_ sub i)) paths d.
Proof. exact (kept_ok d sub paths). Qed.
Print Assumptions C115_kept.
Example C115_ex_kept : kept 0 [1; 3] [10; 11; 12; 13; 14] = Some [11; 13].
Proof. reflexivity. Qed.

(* isTemporalWindowBreak, subset loaded, with a window: a packet is at a break exactly if the frame before its own is not in the subset. *)
Theorem C115_break only w sub i : increasing sub -> 0 < w -> 0 < i < Z.of_nat (length sub) -> exists b, break_2018 true only w sub i = Some b /\ (b = true <-> ~ In (at_ sub i - 1) sub).
Proof. exact (break_iff sub w i). Qed.
Print Assumptions C115_break.
(* Between breaks packets are frames one after the other. *)
Theorem C115_run only w sub a n : increasing sub -> 0 < w -> 0 <= a -> a + Z.of_nat n < Z.of_nat (length sub) -> (forall i, a < i <= a + Z.of_nat n -> break_2018 true only w sub i = Some false) -> at_ sub (a + Z.of_nat n) = at_ sub a + Z.of_nat n.
Proof. exact (run_of_frames sub w a n). Qed.
Print Assumptions C115_run.
(* The window around a frame of the file is never broken. *)
Theorem C115_window only total w lines real sub g f : 0 < w -> subset_2018 true only total w lines = Some (real, sub) -> In g real -> 0 < f < total -> g - w < f <= g + w ->
  exists i, 0 < i < Z.of_nat (length sub) /\ at_ sub i = f /\ at_ sub (i - 1) = f - 1 /\ break_2018 true only w sub i = Some false.
Proof.
  intros Hw E Hg Hf Hn. assert (R := C115_load only total w lines ltac:(lia)). rewrite E in R. destruct R as (_ & _ & S & D & N & _). apply D in Hg.
  assert (F1 : In f sub) by (apply N; split; [lia|]; exists g; split; [exact Hg|lia]). assert (F0 : In (f - 1) sub) by (apply N; split; [lia|]; exists g; split; [exact Hg|lia]).
  destruct (in_at sub f F1) as (i & Hi & Ei). destruct (in_at sub (f - 1) F0) as (j & Hj & Ej). assert (J : j < i). { destruct (Z_lt_le_dec j i) as [X|X]; [exact X|]. destruct (Z.eq_dec j i) as [->|]; [lia|]. assert (Y := at_lt sub S i j ltac:(lia) ltac:(lia)). lia. }
  assert (P : j = i - 1). { destruct (Z.eq_dec j (i - 1)) as [X|X]; [exact X|]. assert (Y := at_lt sub S j (i - 1) ltac:(lia) ltac:(lia)). assert (Z1 := at_lt sub S (i - 1) i ltac:(lia) ltac:(lia)). lia. }
  subst j. exists i. split; [lia|]. split; [exact Ei|]. split; [exact Ej|]. destruct (break_iff sub w i S Hw ltac:(lia)) as (b & B1 & B2). unfold break_2018. rewrite B1. destruct b; [|reflexivity]. exfalso. apply (proj1 B2 eq_refl). rewrite Ei. exact F0.
Qed.
Print Assumptions C115_window.
Example C115_ex_break : map (break_2018 true false 2 [5; 6; 7; 8; 9; 10; 18; 19; 20; 21]) [0; 1; 5; 6; 7; 9; 10] = [Some true; Some false; Some false; Some true; Some false; Some false; Some true].
Proof. reflexivity. Qed.
(* Without a window, or behind the end, each packet is at a break. *)
Theorem C115_always only w sub i : sub <> [] -> (w = 0 \/ (0 <= w /\ Z.of_nat (length sub) <= i)) -> break_2018 true only w sub i = Some true.
Proof.
  intros N H. unfold break_2018, is_break. destruct (Z.eqb_spec i 0); [reflexivity|]. cbn [negb]. destruct sub as [|a s]; [contradiction|]. cbn [is_empty orb]. destruct (Z.ltb_spec w 0); [lia|]. destruct (Z.eqb_spec w 0); [reflexivity|]. destruct (Z.leb_spec (Z.of_nat (length (a :: s))) i); [reflexivity|lia].
Qed.
Print Assumptions C115_always.
(* "Always false otherwise": if not for packet 0. *)
Theorem C115_otherwise only w sub i : i <> 0 -> break_2018 false only w sub i = Some false /\ break_vap false false w sub i = Some false.
Proof. intros H. unfold break_2018, break_vap, is_break. destruct (Z.eqb_spec i 0); [contradiction|]. split; reflexivity. Qed.
Print Assumptions C115_otherwise.
Theorem C115_otherwise_refuted : forall only w sub, break_2018 false only w sub 0 = Some true /\ break_vap false false w sub 0 = Some true.
Proof. intros. split; reflexivity. Qed.
Print Assumptions C115_otherwise_refuted.
Theorem C115_2014 i : (forall load, i <> 0 -> break_2014 load i = load) /\ break_2014 true i = true.
Proof. unfold break_2014. destruct (Z.eqb_spec i 0); split; intros; congruence. Qed.
Print Assumptions C115_2014.
Theorem C115_2014_refuted : exists i, break_2014 false i = true.
Proof. exists 0. reflexivity. Qed.
Print Assumptions C115_2014_refuted.
(* VAP with bEvalOnlyFrameSubset alone: all frames are loaded, but packets are looked up among those of the subset; packets of neighbouring frames are said to be at a break, here all from 3 on. *)
Theorem C115_vap_only_refuted : exists lines real sub, subset_vap false true 1 lines = Some (real, sub) /\
  forall n i, 3 <= i < n -> at_ (frames_vap false sub n) i = at_ (frames_vap false sub n) (i - 1) + 1 /\ break_vap false true 1 sub i = Some true.
Proof.
  exists [Index 100], [100], [99; 100; 101]. split; [reflexivity|]. intros n i Hi. cbn [frames_vap]. unfold at_. assert (N : forall k, 0 <= k < n -> nth (Z.to_nat k) (zrange 0 n) 0 = k). { intros k Hk. unfold zrange. rewrite nth_zseq by lia. lia. }
  rewrite !N by lia. split; [lia|]. apply (C115_always true 1 [99; 100; 101] i); [discriminate|]. right. cbn. lia.
Qed.
Print Assumptions C115_vap_only_refuted.

(* The loop of cosegm: if the end is at a break, each packet is pushed just once, and in order, wherever other breaks are. *)
Theorem C115_pushes brk depth n start : 0 <= depth -> brk (start + Z.of_nat n) = true -> map snd (analyze n brk depth start start) = zrange start (Z.of_nat n).
Proof. exact (analyze_all brk depth n start). Qed.
Print Assumptions C115_pushes.
(* So it is for a subset of LITIV 2018 or VAP. *)
Theorem C115_pushes_subset only w sub depth : 0 <= w -> 0 <= depth -> sub <> [] -> let brk i := match break_2018 true only w sub i with Some b => b | None => false end in
  map snd (analyze (length sub) brk depth 0 0) = zrange 0 (Z.of_nat (length sub)).
Proof. intros Hw Hd N brk. apply analyze_all; [exact Hd|]. unfold brk. rewrite Z.add_0_l, C115_always; [reflexivity|exact N|]. right. lia. Qed.
Print Assumptions C115_pushes_subset.
Example C115_ex_pushes : analyze 6 (fun i => match break_2018 true false 1 [4; 5; 6; 7; 11; 12] i with Some b => b | None => false end) 1 0 0 = [(1, 0); (2, 1); (3, 2); (3, 3); (5, 4); (5, 5)].
Proof. reflexivity. Qed.
(* For each push the packets from the one pushed to the current one follow each other without break, and are no more than the temporal depth apart: the layer getOutput is asked for exists, and was made since the last reset. *)
Theorem C115_layers brk depth n start c e : 0 <= depth -> In (c, e) (analyze n brk depth start start) -> start <= e <= c /\ c < start + Z.of_nat n /\ c - e <= depth /\ forall i, e < i <= c -> brk i = false.
Proof.
  intros Hd H. destruct (analyze_layers brk depth Hd n start start ltac:(lia) ltac:(intros; lia) c e H) as (A & B & C & D). split; [lia|]. split; [lia|]. split; [lia|exact D].
Qed.
Print Assumptions C115_layers.
(* If all frames are loaded the end is no break: the last packets, as many as the temporal depth, are never pushed. *)
Theorem C115_pushes_full only w sub depth n : 0 <= depth -> let brk i := match break_2018 false only w sub i with Some b => b | None => false end in map snd (analyze n brk depth 0 0) = zrange 0 (Z.of_nat n - depth).
Proof. intros Hd brk. apply analyze_open; [exact Hd|]. intros i Hi. unfold brk. destruct (C115_otherwise only w sub i ltac:(lia)) as [E _]. rewrite E. reflexivity. Qed.
Print Assumptions C115_pushes_full.
Theorem C115_pushes_full_refuted : exists only w sub depth n, 0 <= depth /\ map snd (analyze n (fun i => match break_2018 false only w sub i with Some b => b | None => false end) depth 0 0) <> zrange 0 (Z.of_nat n).
Proof. exists false, 1, [0; 1; 2], 1, 3%nat. split; [lia|]. vm_compute. discriminate. Qed.
Print Assumptions C115_pushes_full_refuted.
