(** C33: LBSP neighbour lookup and gradients. *)
From Coq Require Import ZArith NArith List QArith.
From Verif Require Import Model.Bits Model.Simd Model.Lbsp Spec.Bits Spec.Simd Spec.Lbsp Proofs.Lbsp.
Import ListNotations.
Open Scope Z_scope.

(** every neighbour read is the pixel of the drawn pattern, inside the image, despite the unsigned offset arithmetic *)
Theorem C33_lookup_in_image : forall data rs cs rows cols y x c n, (n < 16)%nat -> 0 <= data -> 0 < cs -> cols * cs <= rs -> data + rows * rs <= 2^64 ->
  lookup_pre rows cols y x = true -> 0 <= c < cs ->
  lookup_addr data rs cs y x c n = data + (y + nth n off_y 0) * rs + (x + nth n off_x 0) * cs + c /\
  0 <= y + nth n off_y 0 < rows /\ 0 <= x + nth n off_x 0 < cols.
Proof. exact lookup_ok. Qed.
Print Assumptions C33_lookup_in_image.

Theorem C33_offsets_are_pattern : forall n, (n < 16)%nat ->
  nth_error pattern n = Some (nth n off_x 0, nth n off_y 0) /\ -2 <= nth n off_x 0 <= 2 /\ -2 <= nth n off_y 0 <= 2.
Proof. exact off_bounds. Qed.
Print Assumptions C33_offsets_are_pattern.

(** sixteen different pixels, none of them the centre *)
Theorem C33_lookup_distinct : forall data rs cs rows cols y x c n m, (n < 16)%nat -> (m < 16)%nat -> 0 <= data -> 0 < cs -> cols * cs <= rs -> data + rows * rs <= 2^64 ->
  lookup_pre rows cols y x = true -> 0 <= c < cs ->
  lookup_addr data rs cs y x c n = lookup_addr data rs cs y x c m -> n = m.
Proof. exact lookup_injective. Qed.
Print Assumptions C33_lookup_distinct.

Theorem C33_centre_not_in_pattern : NoDup pattern /\ ~ In (0, 0) pattern /\ length pattern = 16%nat.
Proof. exact pattern_distinct. Qed.
Print Assumptions C33_centre_not_in_pattern.

(** the gradient is taken on a channel with most set bits; its components count set neighbours left minus right and below minus above *)
Theorem C33_gradient : forall ds last, exists d, In d (last :: ds) /\ (forall e, In e (last :: ds) -> (ones 16 e <= ones 16 d)%N) /\
  gradient ds last = Some (weighted leftward pattern 0 d, weighted downward pattern 0 d, ones 16 d).
Proof. exact gradient_ok. Qed.
Print Assumptions C33_gradient.

Theorem C33_gradient_bounds : forall ds last gx gy mag, gradient ds last = Some (gx, gy, mag) -> -6 <= gx <= 6 /\ -6 <= gy <= 6 /\ (mag <= 16)%N.
Proof. exact gradient_bounds. Qed.
Print Assumptions C33_gradient_bounds.

Theorem C33_gradient_threshold : forall ref, byte ref -> gradient_thr 20 2 ref = (ref / 4 + 20) / 2 /\ 10 <= gradient_thr 20 2 ref <= 41.
Proof. exact gradient_thr_default. Qed.
Print Assumptions C33_gradient_threshold.

(** the dense computation writes every pixel at distance at least two from the border and no other *)
Theorem C33_written_pixels : forall rows cols y x, In (y, x) (written rows cols) <-> 2 <= y < rows - 2 /\ 2 <= x < cols - 2.
Proof. exact written_iff. Qed.
Print Assumptions C33_written_pixels.

Example C33_ex_lookup : lookup_pre 5 7 2 3 = true /\ lookup_addr 1000 21 3 2 3 1 7 = 1000 + 0 * 21 + 1 * 3 + 1.
Proof. vm_compute. auto. Qed.
Example C33_ex_extreme : gradient [] GradX_Pos = Some (6, 0, 6%N) /\ gradient [GradY_Pos; 65535%N] GradX_Neg = Some (0, 0, 16%N).
Proof. vm_compute. auto. Qed.
Example C33_ex_small_image : written 4 100 = [] /\ written 5 6 = [(2, 2); (2, 3)].
Proof. vm_compute. auto. Qed.
