From Coq Require Import ZArith Reals List Bool Lia Lra.
From Verif Require Import Lib.Grid Model.ShapeContext Spec.ShapeContext Proofs.ShapeContext.
Import ListNotations.
Open Scope Z_scope.

(* the dense map, whatever was computed before, so long as no earlier detectAndCompute was left without keypoints: each bin of each pixel holds
   the number of contour points that lie there, except that pixels whose surroundings are blank hold nothing *)
Theorem C88_dense : forall cf cs s, Forall (fun c => match c with Detect _ kp => kp <> [] | _ => True end) cs -> exists m, snd (dense cf (run cf cs) s) = Some m /\
  forall y x b, 0 <= y < rows s -> 0 <= x < cols s -> m (y, x) b = if near cf s (y, x) then around (outer cf) (lut cf) (contour s) (y, x) b else 0.
Proof.
  intros cf cs s O. destruct (dense_ok cf cs s O) as (m & E & S). exists m. split; [ exact E |]. intros y x b Y X. apply S. apply within_spec. cbn. lia.
Qed.
Print Assumptions C88_dense.

(* what blank surroundings are: the disc around the pixel meets no non-zero pixel *)
Theorem C88_near : forall cf s y x, near cf s (y, x) = true <-> exists dy dx, Z.abs dy <= outer cf + 2 /\ Z.abs dx <= outer cf + 2 /\ kernel cf dy dx = true /\
  0 <= y + dy < rows s /\ 0 <= x + dx < cols s /\ mask s (y + dy) (x + dx) = true.
Proof. exact near_spec. Qed.
Print Assumptions C88_near.

(* when the inner radius leaves the last ring but one within the outer radius, skipping blank surroundings loses nothing *)
Theorem C88_complete : forall nb out inner ang cs s, (2 <= nb)%nat -> 0 < out -> (bound nb out inner (nb - 2) <= IZR out)%R ->
  (forall p, In p (contour s) -> 0 <= fst p < rows s /\ 0 <= snd p < cols s /\ mask s (fst p) (snd p) = true) ->
  Forall (fun c => match c with Detect _ kp => kp <> [] | _ => True end) cs -> let cf := extractor nb out inner ang in exists m, snd (dense cf (run cf cs) s) = Some m /\
  forall y x b, 0 <= y < rows s -> 0 <= x < cols s -> m (y, x) b = around out (lienhart nb out inner ang) (contour s) (y, x) b.
Proof.
  intros nb out inner ang cs s N P B D O cf. destruct (dense_ok cf cs s O) as (m & E & S). exists m. split; [ exact E |]. intros y x b Y X.
  rewrite S by (apply within_spec; cbn; lia). apply (share_all cf); [ now apply extractor_covered |]. intros p I. destruct (D p I) as (? & ? & ?). split; [ apply within_spec; lia | assumption ].
Qed.
Print Assumptions C88_complete.

(* for such radii every counted point is within the outer radius *)
Theorem C88_reach : forall nb out inner ang dy dx, (2 <= nb)%nat -> 0 < out -> (bound nb out inner (nb - 2) <= IZR out)%R ->
  lienhart nb out inner ang dy dx <> -1 -> dy * dy + dx * dx <= out * out.
Proof. exact lienhart_reach. Qed.
Print Assumptions C88_reach.

(* the constructor also takes radii for which a point is counted, or not, depending on a pixel that is in no bin at all *)
Theorem C88_complete_refuted : exists nb out inner, (2 <= nb)%nat /\ 0 < inner < out /\ forall ang, (forall dy dx, 0 <= ang dy dx) -> let cf := extractor nb out inner ang in
  exists s t far b m n, contour t = contour s ++ [far] /\ rows t = rows s /\ cols t = cols s /\
    (forall p, In p (contour t) -> 0 <= fst p < rows t /\ 0 <= snd p < cols t /\ mask t (fst p) (snd p) = true) /\
    (forall p, In p (contour s) -> mask s (fst p) (snd p) = true) /\ bin cf (30, 30) far = None /\
    snd (dense cf (run cf []) s) = Some m /\ snd (dense cf (run cf []) t) = Some n /\ m (30, 30) b = 0 /\ n (30, 30) b = 1.
Proof.
  exists 2%nat, 20, 19. split; [ lia |]. split; [ lia |]. intros ang A cf. destruct (skip_differs ang (A 19 19)) as (U & V).
  destruct (dense_ok cf [] (dots [(49, 49)])) as (m & E & S); [ constructor |]. destruct (dense_ok cf [] (dots [(49, 49); (30, 52)])) as (n & F & T); [ constructor |].
  exists (dots [(49, 49)]), (dots [(49, 49); (30, 52)]), (30, 52), (ang 19 19 * 2 + 1), m, n.
  split; [ reflexivity |]. split; [ reflexivity |]. split; [ reflexivity |]. split.
  { intros p P. destruct (dots_drawn [(49, 49); (30, 52)] eq_refl p P) as (W & M). apply within_spec in W. tauto. }
  split; [ intros p P; exact (proj2 (dots_drawn [(49, 49)] eq_refl p P)) |]. split; [ reflexivity |]. split; [ exact E |]. split; [ exact F |].
  rewrite S, T by reflexivity. auto.
Qed.
Print Assumptions C88_complete_refuted.

(* with keypoints in the image, one row each, in order *)
Theorem C88_rows : forall cf cs s kp, kp <> [] -> (forall k, In k kp -> 0 <= fst k < rows s /\ 0 <= snd k < cols s) -> exists m, snd (detect cf (run cf cs) s kp) = Some (Some m) /\
  length m = length kp /\ forall i b, (i < length kp)%nat ->
    nth i m (fun _ => 0) b = if near cf s (nth i kp (0, 0)) then around (outer cf) (lut cf) (contour s) (nth i kp (0, 0)) b else 0.
Proof. intros cf cs s kp N W. apply detect_ok; [| exact N ]. intros k K. apply within_spec. auto. Qed.
Print Assumptions C88_rows.

(* the map form counts every contour point once for each time its keypoint is listed *)
Theorem C88_keyed : forall cf cs s kp, kp <> [] -> (forall k, In k kp -> 0 <= fst k < rows s /\ 0 <= snd k < cols s) -> exists m, snd (keyed cf (run cf cs) s kp) = Some (Some m) /\
  forall q b, m q b = times q kp * (if near cf s q then around (outer cf) (lut cf) (contour s) q b else 0).
Proof. intros cf cs s kp N W. apply keyed_ok; [| exact N ]. intros k K. apply within_spec. auto. Qed.
Print Assumptions C88_keyed.

(* so that the map of the contour itself doubles the counts of a point that the contour passes twice *)
Theorem C88_keyed_refuted : exists cf s q b m n, snd (keyed cf (run cf []) s []) = Some (Some m) /\ snd (dense cf (run cf []) s) = Some n /\ In q (contour s) /\ n q b = 2 /\ m q b = 4.
Proof.
  set (cf := {| outer := 2; lut := fun dy dx => if (dy =? 0) && (dx =? 0) then -1 else 0; kernel := fun _ _ => true |}).
  (* a line of three pixels: its contour goes there and back *)
  set (s := dots [(5, 5); (5, 6); (5, 7); (5, 6)]). destruct (keyed_contour cf (run cf []) s) as (m & E & S).
  - intros k K. exact (proj1 (dots_drawn [(5, 5); (5, 6); (5, 7); (5, 6)] eq_refl k K)).
  - discriminate.
  - destruct (dense_ok cf [] s) as (n & F & T); [ constructor |]. exists cf, s, (5, 6), 0, m, n.
    split; [ exact E |]. split; [ exact F |]. split; [ right; now left |]. rewrite S, T by reflexivity. unfold share. unfold s. rewrite dots_near by reflexivity. split; reflexivity.
Qed.
Print Assumptions C88_keyed_refuted.

(* keypoints are not validated: one outside of the image has the distance mask read there *)
Theorem C88_outside : forall cf cs s kp k, In k kp -> ~ (0 <= fst k < rows s /\ 0 <= snd k < cols s) -> snd (keyed cf (run cf cs) s kp) = None.
Proof.
  intros cf cs s kp k I O. unfold keyed. cbn [snd]. destruct kp as [|a kp]; [ destruct I |]. rewrite fill_map_none; [ reflexivity |].
  exists k. split; [ exact I |]. apply not_true_iff_false. intro W. apply O. now apply within_spec.
Qed.
Print Assumptions C88_outside.

(* after a detectAndCompute without keypoints, the next dense map of an image of that size uses the keypoints of the image before: outside of a smaller one ... *)
Theorem C88_stale_refuted : forall cf, exists s t, let cs := [Dense s; Detect t []] in snd (dense cf (run cf [Dense s]) t) <> None /\ snd (dense cf (run cf cs) t) = None.
Proof.
  intro cf. set (im := fun n => {| rows := n; cols := n; mask := fun _ _ => false; contour := [] |}). exists (im 2), (im 1). split.
  - destruct (dense_ok cf [Dense (im 2)] (im 1)) as (m & E & _); [ repeat constructor |]. rewrite E. discriminate.
  - unfold dense. cbn [snd]. apply fill_map_none. exists (0, 1). split; [ right; left; reflexivity | reflexivity ].
Qed.
Print Assumptions C88_stale_refuted.

(* ... and not on all of a larger one *)
Theorem C88_missing_refuted : forall cf, 0 <= lut cf 0 (-1) -> kernel cf 0 (-1) = true -> 1 <= outer cf -> exists s t q m n, let cs := [Dense s; Detect t []] in
  snd (dense cf (run cf [Dense s]) t) = Some m /\ snd (dense cf (run cf cs) t) = Some n /\ m q (lut cf 0 (-1)) = 1 /\ forall b, n q b = 0.
Proof.
  intros cf L K O. set (s := {| rows := 1; cols := 1; mask := fun _ _ => false; contour := [] |}).
  set (t := {| rows := 1; cols := 2; mask := fun y x => (y =? 0) && (x =? 0); contour := [(0, 0)] |}).
  destruct (dense_ok cf [Dense s] t) as (m & E & S); [ repeat constructor |]. destruct (fill_map_spec cf t [(0, 0)]) as (n & F & T).
  { intros k [<-|[]]. reflexivity. }
  exists s, t, (0, 1), m, n. split; [ exact E |]. split; [ exact F |]. split.
  - rewrite S by reflexivity. unfold share. replace (near cf t (0, 1)) with true.
    + unfold around, t, contour, count, seen. cbn [fst snd filter]. replace (Z.abs (0 - 0)) with 0 by reflexivity. replace (Z.abs (0 - 1)) with 1 by reflexivity.
      replace (0 - 0) with 0 by lia. replace (0 - 1) with (-1) by lia. rewrite (proj2 (Z.leb_le 0 _)), (proj2 (Z.leb_le 1 _)), Z.eqb_refl, (proj2 (Z.eqb_neq _ _)) by lia. reflexivity.
    + symmetry. apply existsb_exists. exists (0, -1). split; [ apply in_grid; cbn [fst snd]; lia |]. cbn [fst snd]. rewrite K. reflexivity.
  - intro b. rewrite T. reflexivity.
Qed.
Print Assumptions C88_missing_refuted.

(* the constructor takes a single radial bin; nothing is counted then, in any image *)
Theorem C88_one_ring : forall out inner ang cs s, Forall (fun c => match c with Detect _ kp => kp <> [] | _ => True end) cs -> let cf := extractor 1 out inner ang in
  exists m, snd (dense cf (run cf cs) s) = Some m /\ forall y x b, 0 <= y < rows s -> 0 <= x < cols s -> m (y, x) b = 0.
Proof.
  intros out inner ang cs s O cf. destruct (dense_ok cf cs s O) as (m & E & S). exists m. split; [ exact E |]. intros y x b Y X.
  rewrite S by (apply within_spec; cbn; lia). apply one_ring.
Qed.
Print Assumptions C88_one_ring.

Example C88_ex_radii : (bound 2 20 5 (2 - 2) <= IZR 20)%R.
Proof.
  unfold bound. cbn [Nat.eqb Nat.sub Nat.add]. rewrite rpower_sqrt2. replace (INR 2) with 2%R by (cbn; lra).
  assert (S : (sqrt 2 <= 1.5)%R). { rewrite <- (sqrt_square 1.5) by lra. apply sqrt_le_1_alt. lra. } cbn. lra.
Qed.
Example C88_ex_count : around 2 (fun dy dx => if (dy =? 0) && (dx =? 0) then -1 else if dy <? 0 then 0 else 1) [(4, 4); (5, 6); (6, 4); (5, 6); (9, 9); (5, 5)] (5, 5) 1 = 3.
Proof. reflexivity. Qed.
Example C88_ex_calls : Forall (fun c => match c with Detect _ kp => kp <> [] | _ => True end) [Dense (dots []); Detect (dots [(1, 1)]) [(1, 1)]; Keyed (dots []) []].
Proof. repeat constructor. discriminate. Qed.
