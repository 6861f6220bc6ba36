From Coq Require Import ZArith List Bool Lia.
From Verif Require Import Model.Display Spec.Display.
Import ListNotations.
Open Scope Z_scope.

Lemma share a b c : 0 < c -> 0 <= a -> 0 <= b -> 0 <= a * b / c /\ a * b / c * c <= a * b < a * b / c * c + c.
Proof. intros C A B. assert (P := Z.mul_div_le (a * b) c C). assert (Q := Z.mul_succ_div_gt (a * b) c C). assert (R := Z.div_pos (a * b) c ltac:(nia) C). lia. Qed.
Inductive limited (mw mh w h : Z) : size -> Prop :=
| Whole : w <= mw -> h <= mh -> limited mw mh w h (w, h)
| Wide : mw < w -> h < w -> limited mw mh w h (mw, mw * h / w)
| Tall : (mw < w -> w <= h) -> (mw < w \/ mh < h) -> limited mw mh w h (mh * w / h, mh).
Lemma limit_cases mw mh w h : 0 < mw -> 0 < mh -> limited mw mh w h (limit (mw, mh) (w, h)).
Proof.
  intros A B. unfold limit. assert (M : 0 < mw * mh) by nia. destruct (Z.ltb_spec 0 (mw * mh)); [|lia]. destruct (Z.ltb_spec mw w), (Z.ltb_spec mh h); cbn [andb orb]; try (constructor; lia); destruct (Z.ltb_spec h w); cbn [andb]; constructor; lia.
Qed.
Lemma le_of_mul a b c : 0 < c -> a * c <= b * c -> a <= b.
Proof. intros C H. apply (Z.mul_le_mono_pos_r a b c C). exact H. Qed.
Lemma tile_window most s rows cols : 0 < rows -> 0 < cols -> let l := limit most (fst s * cols, snd s * rows) in fits (window (tile most s rows cols) rows cols) l /\ fst l < fst (window (tile most s rows cols) rows cols) + cols /\ snd l < snd (window (tile most s rows cols) rows cols) + rows.
Proof.
  intros R C. cbv zeta. unfold tile, window. destruct (limit most _) as [w h]. unfold fits. cbn [fst snd]. assert (A := Z.mul_div_le w cols C). assert (B := Z.mul_succ_div_gt w cols C). assert (D := Z.mul_div_le h rows R). assert (E := Z.mul_succ_div_gt h rows R). lia.
Qed.
Lemma in_tile t n x : 0 < t -> 0 <= x < t * n -> x = t * Z.quot x t + Z.rem x t /\ 0 <= Z.rem x t < t /\ 0 <= Z.quot x t < n.
Proof. intros T X. assert (A := Z.quot_rem' x t). assert (B := Z.rem_bound_pos x t ltac:(lia) T). split; [exact A|]. split; [exact B|]. nia. Qed.
Lemma internal_in t rows cols x y : 0 < fst t -> 0 < snd t -> 0 <= x < fst t * cols -> 0 <= y < snd t * rows -> internal t (window t rows cols) x y = (Z.rem x (fst t), Z.rem y (snd t)).
Proof.
  intros A B X Y. unfold internal, window. cbn [fst snd]. assert (P : 0 < fst t * snd t) by nia. destruct (Z.leb_spec 0 x), (Z.leb_spec 0 y), (Z.ltb_spec x (fst t * cols)), (Z.ltb_spec y (snd t * rows)), (Z.ltb_spec 0 (fst t * snd t)); try lia. reflexivity.
Qed.
