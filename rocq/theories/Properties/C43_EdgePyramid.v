(** C43: pyramid of the LBSP edge detector. *)
From Coq Require Import ZArith List Bool.
From Verif Require Import Lib.Grid Model.EdgeDetector Spec.EdgeDetector Proofs.EdgePyramid.
Import ListNotations.
Open Scope Z_scope.

(** one level: no access leaves the lookup map exactly when there are two rows, and two columns unless the rows are at most four *)
Theorem C43_level_in_bounds : forall rows cols, (1 <= rows <= 2147483647 /\ 1 <= cols <= 2147483647) ->
  ((forall v, In v (visits rows cols) -> in_lookup rows cols v) <-> (2 <= rows /\ (2 <= cols \/ rows <= 4))).
Proof. exact visits_safe. Qed.
Print Assumptions C43_level_in_bounds.

(** then every pixel is visited once, in raster order, and the 16-neighbour lookup is used exactly two pixels away from the border *)
Theorem C43_every_pixel_once : forall rows cols, (1 <= rows <= 2147483647 /\ 1 <= cols <= 2147483647) -> (2 <= rows /\ (2 <= cols \/ rows <= 4)) ->
  map fst (visits rows cols) = grid 0 rows 0 cols.
Proof. exact visits_grid. Qed.
Print Assumptions C43_every_pixel_once.

Theorem C43_inner_pixels : forall rows cols r c b, (1 <= rows <= 2147483647 /\ 1 <= cols <= 2147483647) -> (2 <= rows /\ (2 <= cols \/ rows <= 4)) ->
  In (r, c, b) (visits rows cols) -> (b = true <-> (2 <= r < rows - 2 /\ 2 <= c < cols - 2)).
Proof. exact visits_flag. Qed.
Print Assumptions C43_inner_pixels.

(** every pixel of the next level is written once and nothing else is *)
Theorem C43_next_level_written_once : forall rows cols, (1 <= rows <= 2147483647 /\ 1 <= cols <= 2147483647) -> (2 <= rows /\ (2 <= cols \/ rows <= 4)) ->
  map next_pos (next_writes rows cols) = grid 0 ((rows + 1) / 2) 0 ((cols + 1) / 2).
Proof. exact next_level. Qed.
Print Assumptions C43_next_level_written_once.

(** its values stay within the range of the values they come from; inside they are the truncated mean of the sixteen neighbours *)
Theorem C43_next_level_range : forall img nb r c b lo hi, 0 <= lo -> hi <= 255 -> lo <= img r c <= hi -> length (nb r c) = 16%nat ->
  (forall x, In x (nb r c) -> lo <= x <= hi) -> lo <= next_value img nb (r, c, b) <= hi.
Proof. exact next_value_range. Qed.
Print Assumptions C43_next_level_range.

Theorem C43_next_level_mean : forall img nb r c, length (nb r c) = 16%nat -> (forall x, In x (nb r c) -> 0 <= x <= 255) ->
  next_value img nb (r, c, true) = fold_right Z.add 0 (nb r c) / 16.
Proof. exact next_value_mean. Qed.
Print Assumptions C43_next_level_mean.

(** level l has ceil(n/2^l) rows or columns *)
Theorem C43_level_size : forall n l, 1 <= n -> level n l = (n + 2 ^ Z.of_nat l - 1) / 2 ^ Z.of_nat l.
Proof. exact level_size. Qed.
Print Assumptions C43_level_size.

(** images larger than 2^(L-1) both ways are safe at every level, images with at most 2^(L-1) rows are not *)
Theorem C43_large_images_safe : forall H W L, (1 <= H <= 2147483647 /\ 1 <= W <= 2147483647) -> 2 ^ (Z.of_nat L - 1) < H -> 2 ^ (Z.of_nat L - 1) < W ->
  forall l, (l < L)%nat -> forall v, In v (visits (level H l) (level W l)) -> in_lookup (level H l) (level W l) v.
Proof. exact pyramid_safe. Qed.
Print Assumptions C43_large_images_safe.

Theorem C43_small_images_refuted : forall H W L, (0 < L)%nat -> (1 <= H <= 2147483647 /\ 1 <= W <= 2147483647) -> H <= 2 ^ (Z.of_nat L - 1) ->
  exists l v, (l < L)%nat /\ In v (visits (level H l) (level W l)) /\ ~ in_lookup (level H l) (level W l) v.
Proof. exact pyramid_unsafe. Qed.
Print Assumptions C43_small_images_refuted.

(** with the default three levels, a 4-row image breaks and a 5x5 one does not *)
Example C43_ex_levels : map (level 5) [0; 1; 2]%nat = [5; 3; 2] /\ map (level 4) [0; 1; 2]%nat = [4; 2; 1].
Proof. vm_compute. auto. Qed.
Example C43_ex_visits : visits 5 5 = map (fun p => (p, (fst p =? 2) && (snd p =? 2))) (grid 0 5 0 5).
Proof. vm_compute. reflexivity. Qed.
