From Coq Require Import ZArith List Bool Lia.
From Verif Require Import Lib.Grid Model.Strided Spec.Strided.
Import ListNotations.
Open Scope Z_scope.

Lemma flat_map_flat {A B C} (f : B -> list C) (g : A -> list B) l : flat_map f (flat_map g l) = flat_map (fun x => flat_map f (g x)) l.
Proof. induction l as [|a l IH]; [reflexivity|]. cbn [flat_map]. rewrite flat_map_app, IH. reflexivity. Qed.
Lemma flat_map_same {A B} (f g : A -> list B) l : (forall x, f x = g x) -> flat_map f l = flat_map g l.
Proof. intros H. induction l as [|a l IH]; [reflexivity|]. cbn [flat_map]. rewrite H, IH. reflexivity. Qed.
Lemma map_flat {A B C} (f : B -> C) (g : A -> list B) l : map f (flat_map g l) = flat_map (fun x => map f (g x)) l.
Proof. induction l as [|a l IH]; [reflexivity|]. cbn [flat_map]. rewrite map_app, IH. reflexivity. Qed.
Lemma flat_map_map {A B C} (f : B -> list C) (g : A -> B) l : flat_map f (map g l) = flat_map (fun x => f (g x)) l.
Proof. induction l as [|a l IH]; [reflexivity|]. cbn [map flat_map]. rewrite IH. reflexivity. Qed.
Lemma flat_map_one {A} (l : list A) : flat_map (fun x => [x]) l = l.
Proof. induction l as [|a l IH]; [reflexivity|]. cbn [flat_map app]. rewrite IH. reflexivity. Qed.
Lemma offs_places ss : forall ts o, length ts = length ss -> offs ss ts o = map (fun idx => place ts idx o) (indices ss).
Proof.
  induction ss as [|s ss IH]; intros [|t ts] o L; try discriminate; [reflexivity|]. cbn [offs indices]. rewrite map_flat. apply flat_map_same. intros i. rewrite map_map. cbn [place]. apply IH. injection L as L. exact L.
Qed.
Lemma zrange_map o c : zrange o c = map (fun k => o + k) (zrange 0 c).
Proof. unfold zrange, zseq. rewrite map_map. apply map_ext. intros; lia. Qed.
Lemma scalars_contents mem ss ts c o : length ts = length ss -> map mem (scalars c (offs ss ts o)) = contents mem ss ts c o.
Proof.
  intros L. unfold scalars, contents. rewrite (offs_places _ _ _ L), flat_map_map, map_flat. apply flat_map_same. intros idx. rewrite zrange_map, map_map. reflexivity.
Qed.
Lemma zrange_one o : zrange o 1 = [o].
Proof. unfold zrange. change (Z.to_nat 1) with 1%nat. rewrite zseq_S. reflexivity. Qed.
Lemma zrange_app o a b : 0 <= a -> 0 <= b -> zrange o (a + b) = zrange o a ++ zrange (o + a) b.
Proof. intros A B. unfold zrange. rewrite Z2Nat.inj_add, zseq_app, Z2Nat.id by lia. reflexivity. Qed.
Lemma blocks (p : Z) (n : nat) : 0 <= p -> forall o j, flat_map (fun i => zrange (o + i * p) p) (zseq j n) = zrange (o + j * p) (Z.of_nat n * p).
Proof.
  intros P. induction n as [|n IH]; intros o j; [reflexivity|]. rewrite zseq_S. cbn [flat_map]. rewrite IH. replace (Z.of_nat (S n) * p) with (p + Z.of_nat n * p) by lia. rewrite zrange_app by lia. f_equal. f_equal. lia.
Qed.
Lemma prod_pos ss : Forall (fun s => 0 < s) ss -> 0 < prod ss.
Proof. induction 1 as [|s r H _ IH]; cbn [prod]; lia. Qed.
Lemma offs_dense c ss : Forall (fun s => 0 < s) ss -> 0 < c -> forall o, scalars c (offs ss (map (Z.mul c) (dense ss)) o) = zrange o (prod ss * c).
Proof.
  intros H C. induction H as [|s r H F IH]; intros o; cbn [dense map offs prod]; [unfold scalars; cbn [flat_map]; rewrite app_nil_r, Z.mul_1_l; reflexivity|].
  assert (P := prod_pos r F). unfold scalars. rewrite flat_map_flat. erewrite flat_map_same; [|intros i; apply (IH (o + i * (c * prod r)))]. cbv beta.
  rewrite (flat_map_same _ (fun i => zrange (o + i * (prod r * c)) (prod r * c))) by (intros i; rewrite (Z.mul_comm c); reflexivity). unfold zrange at 2. rewrite blocks by nia. rewrite Z2Nat.id by lia. f_equal; lia.
Qed.
Lemma scalars_one l : scalars 1 l = l.
Proof. unfold scalars. erewrite flat_map_same; [apply flat_map_one|]. intros x. apply zrange_one. Qed.
Lemma apart_length c ss : forall ts, apart c ss ts -> length ts = length ss.
Proof.
  induction ss as [|s r IH]; intros [|t q] A; try destruct A; [reflexivity|]. cbn [length]. f_equal. destruct r, q; cbn [apart] in A; try destruct A; try reflexivity. apply IH. assumption.
Qed.
Lemma tight_dense c ss : forall ts, apart c ss ts -> tight ss ts = true -> ts = map (Z.mul c) (dense ss).
Proof.
  induction ss as [|s r IH]; intros [|t q] A T; try destruct A; [reflexivity|]. cbn [dense map]. destruct r as [|s2 r], q as [|t2 q]; cbn [apart] in A; [| destruct A | destruct A | destruct A as [H H0]].
  - subst t. cbn [prod dense map]. f_equal. lia.
  - cbn [tight] in T. apply andb_true_iff in T. destruct T as [T1 T2]. apply Z.leb_le in T1. assert (X := IH (t2 :: q) H0 T2). rewrite X. f_equal. cbn [dense map] in X. injection X as X1 X2. cbn [prod]. subst t2. nia.
Qed.
Lemma continuous_scalars c ss : Forall (fun s => 0 < s) ss -> 0 < c -> forall ts o, apart c ss ts -> continuous ss ts = true -> scalars c (offs ss ts o) = zrange o (prod ss * c).
Proof.
  intros H C. induction H as [|s r H F IH]; intros [|t q] o A T; try destruct A.
  - unfold scalars. cbn [offs flat_map prod]. rewrite app_nil_r, Z.mul_1_l. reflexivity.
  - cbn [continuous] in T. destruct (Z.leb_spec s 1).
    + assert (s = 1) by lia. subst s. cbn [offs]. rewrite zrange_one. cbn [flat_map]. rewrite app_nil_r. cbn [prod]. rewrite Z.mul_1_l, Z.mul_0_l, Z.add_0_r. apply IH; [|exact T]. destruct r, q; cbn [apart] in A |- *; [exact I|destruct A|destruct A|apply A].
    + rewrite (tight_dense c (s :: r) (t :: q) A T). apply offs_dense; [constructor; assumption|exact C].
Qed.
Lemma basic_range m : Forall (fun s => 0 < s) (sizes m) -> 0 < chans m -> basic m = zrange (base m) (prod (sizes m) * chans m).
Proof.
  intros H C. unfold basic. assert (D : forall ss, map (Z.mul 1) (dense ss) = dense ss). { intros ss. rewrite (map_ext _ (fun x => x)) by (intros; lia). apply map_id. }
  assert (X := offs_dense 1 (basic_sizes m)). unfold basic_sizes in *. destruct (Z.eqb_spec (chans m) 1) as [E|E].
  - specialize (X H ltac:(lia) (base m)). rewrite D, scalars_one in X. rewrite X, E. reflexivity.
  - assert (F : Forall (fun s => 0 < s) (sizes m ++ [chans m])) by (apply Forall_app; split; [exact H|constructor; [exact C|constructor]]). specialize (X F ltac:(lia) (base m)). rewrite D, scalars_one in X. rewrite X. f_equal. rewrite Z.mul_1_r. clear. induction (sizes m) as [|s r IH]; cbn [app prod]; [lia|rewrite IH; lia].
Qed.
(* squeeze *)
Lemma offs_longer ss : Forall (fun s => 0 < s) ss -> forall ts o, length ts = length ss -> offs ss ts o = offs (map fst (filter (fun p => 1 <? fst p) (combine ss ts))) (map snd (filter (fun p => 1 <? fst p) (combine ss ts))) o.
Proof.
  induction 1 as [|s r H F IH]; intros [|t q] o L; try discriminate; [reflexivity|]. injection L as L. cbn [offs combine filter fst]. destruct (Z.ltb_spec 1 s).
  - cbn [map fst snd offs]. apply flat_map_same. intros i. apply IH. exact L.
  - assert (s = 1) by lia. subst s. rewrite zrange_one. cbn [flat_map]. rewrite app_nil_r, Z.mul_0_l, Z.add_0_r. apply IH. exact L.
Qed.
Lemma offs_last ss : forall ts t o, length ts = length ss -> offs (ss ++ [1]) (ts ++ [t]) o = offs ss ts o.
Proof.
  induction ss as [|s r IH]; intros [|t' q] t o L; try discriminate.
  - cbn [app offs]. rewrite zrange_one. cbn [flat_map app]. f_equal. lia.
  - cbn [app offs]. apply flat_map_same. intros i. apply IH. injection L as L. exact L.
Qed.
Lemma longer_sizes ss : forall ts, length ts = length ss -> map fst (filter (fun p : Z * Z => 1 <? fst p) (combine ss ts)) = filter (fun s => 1 <? s) ss.
Proof. induction ss as [|s r IH]; intros [|t q] L; try discriminate; [reflexivity|]. injection L as L. cbn [combine filter fst]. destruct (1 <? s); cbn [map fst]; rewrite IH by exact L; reflexivity. Qed.
Lemma prod_nonzero ss : Forall (fun s => 0 <= s) ss -> prod ss <> 0 -> Forall (fun s => 0 < s) ss.
Proof. induction 1 as [|s r H _ IH]; intros E; [constructor|]. cbn [prod] in E. assert (s <> 0) by (intros ->; lia). constructor; [lia|]. apply IH. intros X. rewrite X in E. lia. Qed.
Lemma squeeze_offs m : length (steps m) = length (sizes m) -> Forall (fun s => 0 <= s) (sizes m) -> snd (squeeze m) = offs (sizes m) (steps m) (base m).
Proof.
  intros L H. unfold squeeze. destruct ((_ <=? 2) || (prod (sizes m) =? 0)) eqn:E; [reflexivity|]. apply orb_false_iff in E. destruct E as [_ E]. apply Z.eqb_neq in E.
  assert (F := prod_nonzero _ H E).
  rewrite (offs_longer _ F _ _ L). fold (longer m). destruct (longer m) as [|[s t] [|p l]]; [reflexivity| |].
  - cbn [snd map fst]. apply (offs_last [s] [t]). reflexivity.
  - cbn [snd]. apply offs_last. rewrite !map_length. reflexivity.
Qed.
(* agree *)
Lemma agree_iff p a b la lb : length la = length lb -> agree p a b la lb = true <-> Forall2 (fun x y => p x y = true) (map (mem a) la) (map (mem b) lb).
Proof.
  unfold agree. revert lb. induction la as [|x la IH]; intros [|y lb] L; try discriminate; cbn [combine forallb map]; [split; [constructor|reflexivity]|]. injection L as L. rewrite andb_true_iff, (IH lb L). cbn [fst snd]. split; [intros [A B]; constructor; assumption|intros X; inversion X; subst; auto].
Qed.
Lemma zrange_length o n : length (zrange o n) = Z.to_nat n.
Proof. apply zseq_length. Qed.
Lemma offs_length ss : forall ts o, length ts = length ss -> length (offs ss ts o) = length (indices ss).
Proof. intros ts o L. rewrite (offs_places _ _ _ L), map_length. reflexivity. Qed.
Lemma shape_iff a b : shape_eqb a b = true <-> sizes a = sizes b /\ chans a = chans b.
Proof. unfold shape_eqb. destruct (list_eq_dec _ _ _); rewrite andb_true_iff, Z.eqb_eq; intuition congruence. Qed.
Definition proper (m : mat) : Prop := sizes m <> [] /\ Forall (fun s => 0 < s) (sizes m) /\ 0 < chans m /\ apart (chans m) (sizes m) (steps m).
Lemma proper_empty m : proper m -> empty m = false.
Proof. intros (A & B & _). unfold empty. assert (P := prod_pos _ B). destruct (sizes m); [contradiction|]. apply Z.eqb_neq. lia. Qed.
Lemma Forall2_eqb l m : Forall2 (fun x y => (x =? y) = true) l m <-> l = m.
Proof.
  split; [induction 1 as [|x y l m H _ IH]; [reflexivity|apply Z.eqb_eq in H; congruence]|intros ->; induction m; constructor; [apply Z.eqb_refl|assumption]].
Qed.
Lemma scalars_length c l : length (scalars c l) = (length l * Z.to_nat c)%nat.
Proof. unfold scalars. induction l as [|a l IH]; [reflexivity|]. cbn [flat_map length]. rewrite app_length, zrange_length, IH. reflexivity. Qed.
Lemma equal_ok whole a b : proper a -> proper b -> let ca := contents (mem a) (sizes a) (steps a) (chans a) (base a) in let cb := contents (mem b) (sizes b) (steps b) (chans b) (base b) in
  match is_equal whole a b with
  | Some r => r = true <-> sizes a = sizes b /\ chans a = chans b /\ ca = cb
  | None => sizes a = sizes b /\ whole = false /\ chans a <> 1 /\ (continuous (sizes a) (steps a) = false \/ continuous (sizes b) (steps b) = false)
  end.
Proof.
  intros A B. cbv zeta. unfold is_equal. rewrite (proper_empty a A). cbn [andb]. destruct (shape_eqb a b) eqn:S; cbn [negb]; [|split; [discriminate|intros (X & Y & _); assert (Z := proj2 (shape_iff a b) (conj X Y)); congruence]]. apply shape_iff in S. destruct S as [S1 S2].
  destruct A as (A1 & A2 & A3 & A4), B as (B1 & B2 & B3 & B4). assert (LA := apart_length _ _ _ A4). assert (LB := apart_length _ _ _ B4). rewrite <- (scalars_contents (mem a) _ _ _ _ LA), <- (scalars_contents (mem b) _ _ _ _ LB).
  destruct (continuous (sizes a) (steps a)) eqn:Ca, (continuous (sizes b) (steps b)) eqn:Cb; cbn [andb].
  { rewrite (continuous_scalars _ _ A2 A3 _ _ A4 Ca), (continuous_scalars _ _ B2 B3 _ _ B4 Cb). rewrite agree_iff by (rewrite !zrange_length; reflexivity). rewrite Forall2_eqb, <- S1, <- S2. tauto. }
  all: destruct whole; cbn [orb negb]; [|destruct (Z.eqb_spec (chans a) 1); cbn [negb]; [|auto]].
  all: rewrite agree_iff by (rewrite !scalars_length, !offs_length, S1, S2 by assumption; reflexivity); rewrite Forall2_eqb; tauto.
Qed.
Lemma nearly_ok eps a b : proper a -> proper b -> continuous (sizes a) (steps a) = true -> continuous (sizes b) (steps b) = true ->
  is_nearly_equal eps a b = true <-> sizes a = sizes b /\ chans a = chans b /\ Forall2 (fun x y => Z.abs (x - y) <= eps) (contents (mem a) (sizes a) (steps a) (chans a) (base a)) (contents (mem b) (sizes b) (steps b) (chans b) (base b)).
Proof.
  intros A B Ca Cb. unfold is_nearly_equal. rewrite (proper_empty a A). cbn [andb]. destruct (shape_eqb a b) eqn:S; cbn [negb]; [|split; [discriminate|intros (X & Y & _); assert (Z := proj2 (shape_iff a b) (conj X Y)); congruence]]. apply shape_iff in S. destruct S as [S1 S2].
  destruct A as (A1 & A2 & A3 & A4), B as (B1 & B2 & B3 & B4). assert (LA := apart_length _ _ _ A4). assert (LB := apart_length _ _ _ B4). rewrite <- (scalars_contents (mem a) _ _ _ _ LA), <- (scalars_contents (mem b) _ _ _ _ LB).
  rewrite (continuous_scalars _ _ A2 A3 _ _ A4 Ca), (continuous_scalars _ _ B2 B3 _ _ B4 Cb), (basic_range a A2 A3), (basic_range b B2 B3). rewrite agree_iff by (rewrite !zrange_length, S1, S2; reflexivity).
  split; [intros X; split; [exact S1|]; split; [exact S2|]|intros (_ & _ & X)]; (induction X; constructor; [apply Z.leb_le; assumption|assumption]).
Qed.
(* sub *)
Lemma place_moved a : forall d ts idx o, (d < length idx)%nat -> length ts = length idx -> place ts (moved d a idx) o = place ts idx (o + a * nth d ts 0).
Proof.
  induction d as [|d IH]; intros [|t ts] [|i idx] o H L; try discriminate; cbn [length] in *; try lia; cbn [moved place nth]; [f_equal; lia|]. rewrite IH by lia. f_equal. lia.
Qed.
(* concat *)
Lemma paint_all_out (resize : image -> Z -> Z -> Z) (hor : bool) (h w : Z) : 0 < h -> 0 < w -> forall (l : list image) k (out : Z -> Z -> Z) r c, 0 <= k -> (if hor then c < w * k else r < h * k) -> paint_all resize hor h w k l out r c = out r c.
Proof.
  intros H W. induction l as [|[[h' w'] f] l IH]; intros k out r c K X; [reflexivity|]. cbn [paint_all]. rewrite IH by (destruct hor; nia). unfold paint. destruct hor.
  - destruct (Z.leb_spec (w * k) c); [lia|]. rewrite !andb_false_r. reflexivity.
  - destruct (Z.leb_spec (h * k) r); [lia|]. reflexivity.
Qed.
Lemma paint_all_in (resize : image -> Z -> Z -> Z) (hor : bool) (h w : Z) : 0 < h -> 0 < w -> forall (l : list image) k (out : Z -> Z -> Z) j (h' w' : Z) (f : Z -> Z -> Z) (r c : Z), 0 <= k -> nth_error l j = Some (h', w', f) -> 0 <= r < h -> 0 <= c < w ->
  paint_all resize hor h w k l out (if hor then r else r + h * (k + Z.of_nat j)) (if hor then c + w * (k + Z.of_nat j) else c) = (if (h' =? h) && (w' =? w) then f else resize (h', w', f)) r c.
Proof.
  intros H W. induction l as [|[[h0 w0] f0] l IH]; intros k out j h' w' f r c K N Hr Hc; [destruct j; discriminate|]. cbn [paint_all]. destruct j as [|j]; cbn [nth_error] in N.
  - injection N as -> -> ->. rewrite Z.add_0_r. rewrite paint_all_out by (destruct hor; nia). unfold paint. destruct hor.
    + destruct (Z.leb_spec 0 r), (Z.ltb_spec r (0 + h)), (Z.leb_spec (w * k) (c + w * k)), (Z.ltb_spec (c + w * k) (w * k + w)); try lia. cbn [andb]. f_equal; lia.
    + destruct (Z.leb_spec 0 c), (Z.ltb_spec c (0 + w)), (Z.leb_spec (h * k) (r + h * k)), (Z.ltb_spec (r + h * k) (h * k + h)); try lia. cbn [andb]. f_equal; lia.
  - replace (k + Z.of_nat (S j)) with (k + 1 + Z.of_nat j) by lia. apply IH; try assumption; lia.
Qed.
