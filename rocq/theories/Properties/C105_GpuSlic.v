(* C105: superpixels on the graphics card. Statements only; proofs in Proofs/GpuSlic.v, specification in Spec/GpuSlic.v. *)
From Coq Require Import ZArith Reals List Bool Permutation Lia Lra.
From Verif Require Import Lib.Grid Model.Slic Model.GpuSlic Spec.Affinity Spec.GpuSlic Proofs.GpuSlic.
Import ListNotations.
Open Scope Z_scope.

(* a block has enough threads for a cell: each pixel has one thread, in the block of its cell *)
Theorem C105_covered : forall p, 3 <= diam p -> diam p * diam p <= max_threads p -> launches p = true /\
  Permutation (filter (fun t => inside p (snd t)) (threads p)) (map (fun q => (cell (diam p) q, q)) (grid 0 (height p) 0 (width p))).
Proof. intros p D T. split; [ exact (it_launches p D T) | exact (covered p D T) ]. Qed.
Print Assumptions C105_covered.

(* with any number of threads, a thread works on the columns of the cell of its block *)
Theorem C105_columns : forall p t, 3 <= diam p -> In t (threads p) -> snd (snd t) / diam p = snd (fst t).
Proof. exact thread_column. Qed.
Print Assumptions C105_columns.
Example C105_ex_columns : In ((1, 2), (62, 66)) (threads {| width := 99; height := 99; diam := 33; wc := 35; iterations := 1; max_threads := 1024 |}).
Proof. apply in_map_iff. exists ((1, 2), 0, (0, 0)). split; [reflexivity|]. apply in_prod; [apply in_prod|]; [apply in_grid|apply in_zrange|apply in_grid]; vm_compute; repeat split; congruence. Qed.

(* whatever was segmented before, and in whatever order the threads run: the iterations are those of k-means *)
Theorem C105_kmeans : forall p l fs f s r i, 0 < width p -> 3 <= diam p -> diam p * diam p <= max_threads p ->
  segments p fs (initialized l) s -> segment p f s (Some r) -> iterations p = S i ->
  exists c, starts (height p) (width p) (diam p) (per_row p) (per_col p) (features f) c /\
    kmeans (height p) (width p) (diam p) (per_row p) (per_col p) (features f) (slic_distance (diam p) (wc p) f) (S i) c (labels r) (clusters r).
Proof.
  intros p l fs f s r i W D T S G E. destruct (segment_kmeans p W D T f s r i) with (2 := E) (3 := G) as (c & A & B); [ refine (segments_zeroed p W D T fs _ s _ S); intros k a _ _; reflexivity |]. exists c. split.
  - intros y x Y X q a H. rewrite (A y x Y X a H). now apply attribute_features.
  - refine (kmeans_ext _ _ _ _ _ _ _ _ _ _ _ _ _ _ _ B); [ intros q a; apply attribute_features | intros q e; now apply distance_slic ].
Qed.
Print Assumptions C105_kmeans.

(* each label is of one of the nine cells around the pixel *)
Theorem C105_local : forall p l fs f s r q, 0 < width p -> 3 <= diam p -> diam p * diam p <= max_threads p -> (0 < iterations p)%nat ->
  segments p fs (initialized l) s -> segment p f s (Some r) -> 0 <= fst q < height p -> 0 <= snd q < width p ->
  exists i j, labels r q = i * per_row p + j /\ 0 <= i < per_col p /\ 0 <= j < per_row p /\ Z.abs (i - fst q / diam p) <= 1 /\ Z.abs (j - snd q / diam p) <= 1.
Proof.
  intros p l fs f s r q W D T I S G Y X. destruct (segment_local p W D T f s r q) as (e & E & F); [ refine (segments_zeroed p W D T fs _ s _ S); intros k a _ _; reflexivity | exact I | exact G | apply in_grid; lia |].
  exists (fst e), (snd e). split; [ exact F |]. unfold cells_around in E. apply filter_In in E. destruct E as (E & K). apply in_grid in E. rewrite !andb_true_iff, !Z.leb_le, !Z.ltb_lt in K. unfold cell in E. cbn [fst snd] in E. lia.
Qed.
Print Assumptions C105_local.

(* the labels do not depend on earlier frames, on what the label surface held, or on the order of the threads *)
Theorem C105_stateless : forall p f l1 l2 fs1 fs2 s1 s2 r1 r2, 0 < width p -> 3 <= diam p -> diam p * diam p <= max_threads p -> (0 < iterations p)%nat ->
  segments p fs1 (initialized l1) s1 -> segments p fs2 (initialized l2) s2 -> segment p f s1 r1 -> segment p f s2 r2 ->
  match r1, r2 with
  | Some a, Some b => forall q, 0 <= fst q < height p -> 0 <= snd q < width p -> labels a q = labels b q
  | None, None => True
  | _, _ => False
  end.
Proof.
  intros p f l1 l2 fs1 fs2 s1 s2 r1 r2 W D T I S1 S2 G1 G2. assert (Z : forall l, zeroed p (initialized l)) by (intros l k a _ _; reflexivity).
  assert (A := segment_alike p W D T f s1 s2 r1 r2 (segments_zeroed p W D T _ _ _ (Z l1) S1) (segments_zeroed p W D T _ _ _ (Z l2) S2) G1 G2).
  unfold alike in A. destruct r1, r2; try exact A. destruct A as (_ & A). destruct (iterations p); [ lia |]. intros q Y X. apply A, in_grid. lia.
Qed.
Print Assumptions C105_stateless.

(* for every image, with a weight up to 35000: no thread is left without a label, and there are runs *)
Theorem C105_runs : forall p l fs im s, 0 < width p -> 0 < height p -> 3 <= diam p -> diam p * diam p <= max_threads p -> (0 <= wc p <= 35000)%R ->
  (forall q, let '(r, g, b) := im q in 0 <= r <= 1 /\ 0 <= g <= 1 /\ 0 <= b <= 1)%R ->
  segments p fs (initialized l) s -> ~ segment p (colours im) s None /\ exists r, segment p (colours im) s (Some r).
Proof.
  intros p l fs im s W H D T Wc I S. refine (segment_runs p W H D T (colours im) s 500%R _ _ (colours_bounded p im I) _); [ refine (segments_zeroed p W D T fs _ s _ S); intros k a _ _; reflexivity | lra |]. assert (wc p * wc p <= 35000 * 35000)%R by nra. lra.
Qed.
Print Assumptions C105_runs.

(* superpixels of 90 x 90 with 1024 threads in a block: the launch is accepted, but the last two rows of each cell have no threads; they keep what the surface held *)
Theorem C105_uncovered_refuted : exists p f, launches p = true /\ (forall l, exists r, segment p f (initialized l) (Some r)) /\
  forall l r q, segment p f (initialized l) (Some r) -> 88 <= fst q < height p -> labels r q = l q.
Proof.
  exists (big 90 90), flat. split; [ reflexivity |]. split; [ intro l; apply big90_run |]. intros l r q (_ & I) Q. rewrite (untouched (big 90 90) flat q) with (i := iterations (big 90 90)) (s := init_clusters (big 90 90) flat (initialized l)); [ reflexivity | | exact I ].
  intros t J E. destruct (big90_threads t J) as (_ & K). rewrite E in K. lia.
Qed.
Print Assumptions C105_uncovered_refuted.

(* superpixels of 33 x 33: the rows of a block are 62 apart, those of a cell 33; the labels are of cells far from the pixel, whatever the frame *)
Theorem C105_far_refuted : exists p q, launches p = true /\ In q (grid 0 (height p) 0 (width p)) /\ (forall s, exists f r, segment p f s (Some r)) /\
  forall f s r, segment p f s (Some r) -> ~ exists i j, labels r q = i * per_row p + j /\ 0 <= j < per_row p /\ Z.abs (i - fst q / diam p) <= 1.
Proof.
  exists (big 33 264), (248, 0). split; [ reflexivity |]. split; [ apply in_grid; cbn; lia |]. split; [ intro s; exists flat; apply big33_run |]. intros f s r S (i & j & E & J & A). assert (B := big33_far f s r S).
  change (per_row (big 33 264)) with 1 in *. change (fst (248, 0) / diam (big 33 264)) with 7 in A. lia.
Qed.
Print Assumptions C105_far_refuted.

(* a weight of 300000: the corners of a 3x3 image find no superpixel closer than 100000, and add to superpixel -1 *)
Theorem C105_fault_refuted : exists p f, 3 <= diam p /\ diam p * diam p <= max_threads p /\ (forall l, exists r, segment p f (initialized l) r) /\
  forall l r, segment p f (initialized l) r -> r = None.
Proof.
  exists heavy, flat. split; [ cbn; lia |]. split; [ cbn; lia |]. split; [ intro l; apply heavy_runs |]. intros l r. apply heavy_fault. intros k a _ _. reflexivity.
Qed.
Print Assumptions C105_fault_refuted.

(* the conversion: a is that of CIE, L too unless the colour is very dark, b where Z is very low; all are within bounds *)
Theorem C105_lab : forall r g b l a c, (0 <= r <= 1)%R -> (0 <= g <= 1)%R -> (0 <= b <= 1)%R -> lab r g b = (l, a, c) ->
  (-16 <= l <= 100 /\ -500 <= a <= 500 /\ -200 <= c <= 200)%R /\
  forall l' a' c', is_lab (rel_x r g b) (rel_y r g b) (rel_z r g b) l' a' c' ->
    a = a' /\ (0.008856 < rel_y r g b -> l = l')%R /\ (~ (0.008856 < rel_z r g b)%R -> c = c').
Proof. intros r g b l a c R G B E. split; [ exact (lab_bounds r g b l a c R G B E) | exact (lab_right r g b l a c R G B E) ]. Qed.
Print Assumptions C105_lab.

(* z is divided by its cube root: greys are not grey *)
Theorem C105_grey_refuted : forall v, (0.008856 < v < 1)%R -> exists l c, lab v v v = (l, 0%R, c) /\ (0 < c)%R /\ exists l', is_lab v v v l' 0 0.
Proof. exact lab_grey. Qed.
Print Assumptions C105_grey_refuted.

(* the darkness of a colour is tested after the cube root: black is -16 *)
Theorem C105_black_refuted : exists a c, lab 0 0 0 = ((-16)%R, a, c) /\ is_lab 0 0 0 0 0 0.
Proof. destruct (lab 0 0 0) as [[l a] c] eqn:E. assert (L := lab_black l a c E). subst l. exists a, c. split; [ reflexivity | exact is_lab_black ]. Qed.
Print Assumptions C105_black_refuted.

(* 5 x 4 pixels in cells of 3 x 3, three iterations, after a first frame *)
Definition small : params := {| width := 5; height := 4; diam := 3; wc := 35; iterations := 3; max_threads := 1024 |}.
Example C105_ex : (per_row small, per_col small, launches small, length (threads small)) = (2, 2, true, 36%nat).
Proof. reflexivity. Qed.
Example C105_ex_runs : forall l, exists s r, segments small [colours (fun _ => (0, 0, 0)%R)] (initialized l) s /\ segment small (colours (fun _ => (1, 0, 0)%R)) s (Some r) /\ 0 <= labels r (0, 0) < 4.
Proof.
  intro l. assert (W : 0 < width small) by reflexivity. assert (H : 0 < height small) by reflexivity. assert (D : 3 <= diam small) by (cbn; lia). assert (T : diam small * diam small <= max_threads small) by (cbn; lia).
  destruct (C105_runs small l [] (fun _ => (0, 0, 0)%R) (initialized l) W H D T) as (_ & s & S); [ cbn; lra | intro q; lra | constructor |].
  assert (SS : segments small [colours (fun _ => (0, 0, 0)%R)] (initialized l) s) by (econstructor; [ exact S | constructor ]).
  destruct (C105_runs small l [colours (fun _ => (0, 0, 0)%R)] (fun _ => (1, 0, 0)%R) s W H D T) as (_ & r & R); [ cbn; lra | intro q; lra | exact SS |].
  exists s, r. split; [ exact SS |]. split; [ exact R |]. destruct (C105_local small l _ _ s r (0, 0) W D T ltac:(cbn; lia) SS R ltac:(cbn; lia) ltac:(cbn; lia)) as (i & j & E & I & J & _). rewrite E. change (per_row small) with 2 in *. change (per_col small) with 2 in *. lia.
Qed.
Example C105_ex_around : (around small (0, 0), around small (1, 1)) = ([0; 1; 2; 3], [0; 1; 2; 3]).
Proof. reflexivity. Qed.
Example C105_ex_seed : map (fun k => (seed_row small k, seed_col small k)) [0; 1; 2; 3] = [(1, 1); (1, 4); (3, 1); (3, 4)].
Proof. reflexivity. Qed.
