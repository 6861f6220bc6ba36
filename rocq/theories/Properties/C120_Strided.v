From Coq Require Import ZArith List Bool Lia.
From Verif Require Import Lib.Grid Model.Strided Spec.Strided Proofs.Strided.
Import ListNotations.
Open Scope Z_scope.

Definition inside (m : mat) : list Z := contents (mem m) (sizes m) (steps m) (chans m) (base m).
(* a matrix with elements, whose steps keep them apart *)
Definition good (m : mat) : Prop := sizes m <> [] /\ Forall (fun s => 0 < s) (sizes m) /\ 0 < chans m /\ apart (chans m) (sizes m) (steps m).

(* squeeze keeps all scalars in their order, for views with any steps, *)
Theorem C120_squeeze : forall m, length (steps m) = length (sizes m) -> Forall (fun s => 0 <= s) (sizes m) -> map (mem m) (scalars (chans m) (snd (squeeze m))) = inside m.
Proof. intros m L H. rewrite (squeeze_offs m L H). exact (scalars_contents _ _ _ _ _ L). Qed.
Print Assumptions C120_squeeze.
(* and just the sizes above 1, with 1 in front of a single one, and 1 by 1 if there is none; 2d and empty matrices keep theirs *)
Theorem C120_squeeze_sizes : forall m, length (steps m) = length (sizes m) -> fst (squeeze m) = if (length (sizes m) <=? 2)%nat || (prod (sizes m) =? 0) then sizes m else match filter (fun s => 1 <? s) (sizes m) with [] => [1; 1] | [s] => [1; s] | l => l end.
Proof.
  intros m L. unfold squeeze. replace (Z.of_nat (length (sizes m)) <=? 2) with (length (sizes m) <=? 2)%nat by (destruct (Nat.leb_spec (length (sizes m)) 2), (Z.leb_spec (Z.of_nat (length (sizes m))) 2); lia). destruct (_ || _); [reflexivity|]. rewrite <- (longer_sizes _ _ L). unfold longer. destruct (filter _ _) as [|[s t] [|p l]]; reflexivity.
Qed.
Print Assumptions C120_squeeze_sizes.

(* getBasicMat has the scalars of a continuous matrix, *)
Theorem C120_basic : forall m, good m -> continuous (sizes m) (steps m) = true -> map (mem m) (basic m) = inside m.
Proof.
  intros m (_ & A & B & C) T. unfold inside. rewrite <- (scalars_contents _ _ _ _ _ (apart_length _ _ _ C)), (continuous_scalars _ _ A B _ _ C T), (basic_range m A B). reflexivity.
Qed.
Print Assumptions C120_basic.
(* but not of a view of one: the left column of a 2 by 2 matrix becomes its first row *)
Definition corner : mat := {| sizes := [2; 1]; steps := [2; 1]; chans := 1; base := 0; mem := fun o => 10 + o |}.
Theorem C120_basic_refuted : exists m, good m /\ inside m = [10; 12] /\ map (mem m) (basic m) = [10; 11].
Proof. exists corner. repeat split; try reflexivity; try discriminate; cbn; repeat constructor; lia. Qed.
Print Assumptions C120_basic_refuted.

(* getSubMat: the element at an index is that of the matrix at the index moved along the dimension; it is a view of the same memory, and inside *)
Theorem C120_sub : forall m d a b v, sub m d a b = Some (Sub v) -> length (steps m) = length (sizes m) ->
  0 <= d < Z.of_nat (length (sizes m)) /\ 0 <= a /\ b <= nth (Z.to_nat d) (sizes m) 0 /\ mem v = mem m /\ chans v = chans m /\
  (forall i, nth_error (sizes v) i = if (i =? Z.to_nat d)%nat then Some (b - a) else nth_error (sizes m) i) /\
  forall idx, length idx = length (sizes m) -> place (steps v) idx (base v) = place (steps m) (moved (Z.to_nat d) a idx) (base m).
Proof.
  intros m d a b v E L. unfold sub in E. destruct (Z.ltb_spec d (Z.of_nat (length (sizes m)))) as [D|D]; cbn [negb] in E; [|discriminate]. destruct (Z.ltb_spec d 0); [discriminate|]. destruct (Z.leb_spec 0 a), (Z.leb_spec b (nth (Z.to_nat d) (sizes m) 0)); cbn [andb negb] in E; try discriminate. injection E as <-. cbn [mem chans sizes steps base]. split; [lia|]. split; [assumption|]. split; [assumption|]. split; [reflexivity|]. split; [reflexivity|]. split.
  - assert (K : (Z.to_nat d < length (sizes m))%nat) by lia. revert K. clear. generalize (Z.to_nat d) as k. induction (sizes m) as [|s r IH]; intros k K i; [cbn in K; lia|]. destruct k as [|k], i as [|i]; try reflexivity. cbn [set_nth nth_error length] in *. rewrite (IH k) by lia. reflexivity.
  - intros idx Hi. rewrite place_moved by lia. reflexivity.
Qed.
Print Assumptions C120_sub.
(* one index is accepted just if it is in range, for a dimension that is *)
Theorem C120_sub_one : forall m d a, 0 <= d -> ((exists v, sub_one m d a = Some v) <-> d < Z.of_nat (length (sizes m)) /\ 0 <= a < nth (Z.to_nat d) (sizes m) 0) /\ forall v, sub_one m d a = Some v -> sub m d a (a + 1) = Some v.
Proof.
  intros m d a H. unfold sub_one, sub. destruct (Z.ltb_spec d (Z.of_nat (length (sizes m)))), (Z.ltb_spec d 0); try lia; cbn [negb]; [|split; [split; [intros [v V]; discriminate|lia]|discriminate]]. destruct (Z.leb_spec 0 a), (Z.ltb_spec a (nth (Z.to_nat d) (sizes m) 0)), (Z.leb_spec (a + 1) (nth (Z.to_nat d) (sizes m) 0)); cbn [andb negb]; try lia; (split; [split; [intros [v V]; try discriminate; auto|intros X; try lia; eexists; reflexivity]|intros v V; try discriminate; exact V]).
Qed.
Print Assumptions C120_sub_one.
(* but a negative dimension passes the assertions and writes in front of the ranges *)
Theorem C120_sub_refuted : exists m, good m /\ sub m (-1) 0 1 = Some Stray /\ sub_one m (-1) 0 = Some Stray.
Proof. exists corner. repeat split; try reflexivity; try discriminate; cbn; repeat constructor; lia. Qed.
Print Assumptions C120_sub_refuted.

(* isEqual answers right for all views, or refuses: a view that is not continuous, of several channels, compared by scalars *)
Theorem C120_equal : forall whole a b, good a -> good b -> match is_equal whole a b with
  | Some r => r = true <-> sizes a = sizes b /\ chans a = chans b /\ inside a = inside b
  | None => sizes a = sizes b /\ whole = false /\ chans a <> 1 /\ (continuous (sizes a) (steps a) = false \/ continuous (sizes b) (steps b) = false)
  end.
Proof. intros whole a b A B. exact (equal_ok whole a b A B). Qed.
Print Assumptions C120_equal.
(* isNearlyEqual does for continuous ones, *)
Theorem C120_nearly : forall eps a b, good a -> good b -> continuous (sizes a) (steps a) = true -> continuous (sizes b) (steps b) = true ->
  is_nearly_equal eps a b = true <-> sizes a = sizes b /\ chans a = chans b /\ Forall2 (fun x y => Z.abs (x - y) <= eps) (inside a) (inside b).
Proof. exact nearly_ok. Qed.
Print Assumptions C120_nearly.
(* but views with gaps may be equal and not nearly equal, and nearly equal however different they are *)
Theorem C120_nearly_refuted : forall big, exists a b c, good a /\ good b /\ good c /\ is_equal true a b = Some true /\ is_nearly_equal 0 a b = false /\ inside a = [10; 12] /\ inside c = [10; 12 + big] /\ is_nearly_equal 0 a c = true.
Proof.
  intros big. exists corner, {| sizes := [2; 1]; steps := [3; 1]; chans := 1; base := 0; mem := fun o => if o =? 3 then 12 else 10 |}, {| sizes := [2; 1]; steps := [2; 1]; chans := 1; base := 0; mem := fun o => if o =? 2 then 12 + big else 10 + o |}.
  repeat split; try reflexivity; try discriminate; cbn; repeat constructor; lia.
Qed.
Print Assumptions C120_nearly_refuted.
(* matrices of no elements are equal whatever their sizes *)
Theorem C120_empty : forall whole eps a b, empty a = true -> empty b = true -> is_equal whole a b = Some true /\ is_nearly_equal eps a b = true.
Proof. intros whole eps a b A B. unfold is_equal, is_nearly_equal. rewrite A, B. split; reflexivity. Qed.
Print Assumptions C120_empty.
(* but not to others *)
Theorem C120_one_empty : forall whole eps a b, empty a <> empty b -> is_equal whole a b = Some false /\ is_nearly_equal eps a b = false.
Proof.
  intros whole eps a b N. assert (S : shape_eqb a b = false). { unfold shape_eqb. destruct (list_eq_dec Z.eq_dec (sizes a) (sizes b)) as [E|_]; [exfalso; apply N; unfold empty; rewrite E; reflexivity|reflexivity]. }
  unfold is_equal, is_nearly_equal. rewrite S. destruct (empty a), (empty b); try congruence; split; reflexivity.
Qed.
Print Assumptions C120_one_empty.

(* concat: part k of the result is image k, resized if its size is not that of the first *)
Theorem C120_concat : forall resize hor h w f l out, 0 < h -> 0 < w -> (0 < length l)%nat -> exists g, concat resize hor ((h, w, f) :: l) out = Some (if hor then h else h * (1 + Z.of_nat (length l)), if hor then w * (1 + Z.of_nat (length l)) else w, g) /\
  forall k h' w' p r c, nth_error ((h, w, f) :: l) k = Some (h', w', p) -> 0 <= r < h -> 0 <= c < w ->
  g (if hor then r else r + h * Z.of_nat k) (if hor then c + w * Z.of_nat k else c) = (if (h' =? h) && (w' =? w) then p else resize (h', w', p)) r c.
Proof.
  intros resize hor h w f l out H W N. destruct l as [|q l]; [cbn in N; lia|]. replace (1 + Z.of_nat (length (q :: l))) with (Z.of_nat (length ((h, w, f) :: q :: l))) by (cbn [length]; lia). eexists. split; [reflexivity|]. intros k h' w' p r c E Hr Hc. destruct k as [|k]; cbn [nth_error] in E.
  - injection E as -> -> ->. rewrite !Z.eqb_refl. cbn [andb]. change (Z.of_nat 0) with 0. rewrite !Z.mul_0_r, !Z.add_0_r. replace (if hor then r else r) with r by (destruct hor; reflexivity). replace (if hor then c else c) with c by (destruct hor; reflexivity). rewrite paint_all_out by (destruct hor; lia). unfold paint. destruct (Z.leb_spec 0 r), (Z.ltb_spec r (0 + h')), (Z.leb_spec 0 c), (Z.ltb_spec c (0 + w')); try lia. cbn [andb]. f_equal; lia.
  - replace (Z.of_nat (S k)) with (1 + Z.of_nat k) by lia. exact (paint_all_in resize hor h w H W (q :: l) 1 _ k h' w' p r c ltac:(lia) E Hr Hc).
Qed.
Print Assumptions C120_concat.

Example C120_ex_squeeze : squeeze {| sizes := [1; 2; 1; 3]; steps := [40; 20; 6; 2]; chans := 2; base := 5; mem := fun o => o |} = ([2; 3], [5; 7; 9; 25; 27; 29]).
Proof. reflexivity. Qed.
Example C120_ex_continuous : good {| sizes := [1; 2; 3]; steps := [50; 6; 2]; chans := 2; base := 0; mem := fun o => o |} /\ continuous [1; 2; 3] [50; 6; 2] = true.
Proof. repeat split; try discriminate; cbn; repeat constructor; lia. Qed.
