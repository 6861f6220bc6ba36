From Coq Require Import ZArith List Bool Ascii Lia.
From Verif Require Import Model.GlBuffers Spec.GlBuffers.
Import ListNotations.
Open Scope Z_scope.

Lemma int_some z : - 2 ^ 31 <= z < 2 ^ 31 -> int z = Some z.
Proof. intros H. unfold int. destruct (Z.leb_spec (- 2 ^ 31) z), (Z.ltb_spec z (2 ^ 31)); try lia. reflexivity. Qed.
Lemma int_inv z r : int z = Some r -> r = z /\ z < 2 ^ 31.
Proof. unfold int. destruct (Z.leb_spec (- 2 ^ 31) z), (Z.ltb_spec z (2 ^ 31)); cbn [andb]; try discriminate. intros E. injection E as <-. split; [reflexivity|assumption]. Qed.

Lemma copies_some size : 0 < size -> forall todo k buf, 0 <= k -> ((k + Z.of_nat todo - 1) * size < 2 ^ 31 \/ todo = O) -> exists l, copies size k todo buf = Some l.
Proof.
  intros P. induction todo as [|t IH]; intros k buf K H; [eexists; reflexivity|]. destruct H as [H|H]; [|discriminate]. cbn [copies]. rewrite int_some by nia.
  destruct (IH (k + 1) buf) as (l & ->); [lia| |eexists; reflexivity]. destruct t; [right; reflexivity|left]. rewrite !Nat2Z.inj_succ in *. nia.
Qed.
Lemma copies_inv size : forall todo k buf l, copies size k todo buf = Some l -> length l = todo /\ (forall i, (i < todo)%nat -> nth i l [] = slice ((k + Z.of_nat i) * size) size buf) /\ (todo = O \/ (k + Z.of_nat todo - 1) * size < 2 ^ 31).
Proof.
  induction todo as [|t IH]; intros k buf l E; cbn [copies] in E.
  - injection E as <-. split; [reflexivity|]. split; [intros i I; lia|left; reflexivity].
  - destruct (int (k * size)) as [o|] eqn:X; [|discriminate]. destruct (copies size (k + 1) t buf) as [r|] eqn:Y; [|discriminate]. injection E as <-. apply int_inv in X. destruct X as [-> X]. destruct (IH _ _ _ Y) as (A & B & C). split; [cbn [length]; congruence|]. split.
    + intros [|i] I; cbn [nth]; [replace (k + Z.of_nat 0) with k by lia; reflexivity|]. rewrite B by lia. f_equal. f_equal. lia.
    + right. destruct C as [->|C]; [replace (k + Z.of_nat 1 - 1) with k by lia; exact X|]. replace (k + Z.of_nat (S t) - 1) with (k + 1 + Z.of_nat t - 1) by lia. exact C.
Qed.
Lemma slice_nth o n buf j : 0 <= o -> 0 <= j < n -> nth (Z.to_nat j) (slice o n buf) 0 = nth (Z.to_nat (o + j)) buf 0.
Proof.
  intros O J. unfold slice. rewrite Z2Nat.inj_add by lia. assert (L : (Z.to_nat j < Z.to_nat n)%nat) by lia. revert L. generalize (Z.to_nat j) (Z.to_nat n) (Z.to_nat o). clear. intros j n o L.
  assert (F : forall (l : list Z) n j, (j < n)%nat -> nth j (firstn n l) 0 = nth j l 0). { clear. induction l as [|a l IH]; intros [|n] [|j] L; try lia; try reflexivity. cbn. apply IH. lia. }
  rewrite F by exact L. revert o. induction buf as [|a l IH]; intros [|o]; try reflexivity; [destruct j; reflexivity|]. cbn [skipn plus nth]. apply IH.
Qed.
Lemma slice_length o n buf : 0 <= o -> 0 <= n -> o + n <= Z.of_nat (length buf) -> Z.of_nat (length (slice o n buf)) = n.
Proof. intros O N L. unfold slice. rewrite firstn_length, skipn_length. lia. Qed.

Lemma number_lines label : (forall n, ~ In nl (label n)) -> forall ls s, lines_of ls s -> forall n p, ~ In nl p -> exists l r, ls = l :: r /\ lines_of ((p ++ l) :: map (fun q => label (n + 1 + Z.of_nat (fst q)) ++ snd q) (combine (seq 0 (length r)) r)) (p ++ number_from label n s).
Proof.
  intros N. assert (Q : forall n l t, ~ In nl l -> number_from label n (l ++ t) = l ++ number_from label n t).
  { induction l as [|c l IH]; intros t I; [reflexivity|]. cbn [app number_from]. destruct (Ascii.eqb_spec c nl) as [->|D]; [destruct I; now left|]. f_equal. apply IH. intros J. apply I. now right. }
  induction 1 as [l I|l ls s I L IH]; intros n p P.
  - exists l, []. split; [reflexivity|]. cbn [length seq combine map]. replace l with (l ++ []) at 2 by apply app_nil_r. rewrite Q by exact I. cbn [number_from]. rewrite app_nil_r. constructor. rewrite in_app_iff. tauto.
  - exists l, ls. split; [reflexivity|]. rewrite Q by exact I. cbn [number_from]. assert (Ascii.eqb "010" nl = true) as -> by reflexivity.
    rewrite app_assoc. apply more_lines; [rewrite in_app_iff; tauto|]. destruct (IH (n + 1) (label (n + 1)) (N _)) as (l' & r & -> & M). cbn [length seq combine map]. cbn [fst snd]. replace (n + 1 + Z.of_nat 0) with (n + 1) by lia.
    replace (map (fun q => label (n + 1 + Z.of_nat (fst q)) ++ snd q) (combine (seq 1 (length r)) r)) with (map (fun q => label (n + 1 + 1 + Z.of_nat (fst q)) ++ snd q) (combine (seq 0 (length r)) r)); [exact M|].
    clear. generalize 0%nat. induction r as [|a r IH]; intros k; [reflexivity|]. cbn [length seq combine map fst snd]. rewrite IH. f_equal. f_equal. f_equal. lia.
Qed.
Lemma nth_labels label n (r : list (list ascii)) : forall i k, (i < length r)%nat -> nth i (map (fun q => label (n + Z.of_nat (fst q)) ++ snd q) (combine (seq k (length r)) r)) [] = label (n + Z.of_nat (k + i)) ++ nth i r [].
Proof.
  induction r as [|a r IH]; intros i k I; cbn [length] in I; [lia|]. cbn [length seq combine map]. destruct i as [|i]; cbn [nth fst snd]; [rewrite Nat.add_0_r; reflexivity|]. rewrite IH by lia. f_equal. f_equal. lia.
Qed.

Lemma fill_spec cap : match cap with None => True | Some c => 0 < c end -> forall fuel left file, left <= Z.of_nat fuel -> fill cap fuel left file = Some (file ++ repeat 0 (Z.to_nat left)).
Proof.
  intros C. induction fuel as [|f IH]; intros left file L; cbn [fill]; destruct (Z.leb_spec left 0) as [Z|Z].
  - replace (Z.to_nat left) with O by lia. cbn. now rewrite app_nil_r.
  - lia.
  - replace (Z.to_nat left) with O by lia. cbn. now rewrite app_nil_r.
  - set (k := match cap with None => left | Some c => Z.min c left end). assert (K : 0 < k <= left) by (unfold k; destruct cap; lia). rewrite IH by lia. rewrite <- app_assoc, <- repeat_app. do 3 f_equal. lia.
Qed.
