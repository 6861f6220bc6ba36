(* What SuBSENSE and PBAS inputs look like: distances of 8-bit channels and of 16-bit descriptors, and a non-negative mean difference. *)
From Coq Require Import ZArith QArith Qround List.
From Verif Require Import Model.Subsense.
Import ListNotations.
Open Scope Q_scope.

Definition channel_ok (cd : Z * Z) : Prop := (0 <= fst cd <= 255 /\ 0 <= snd cd <= 16)%Z.
Definition sample_ok (c : config) (s : sample) : Prop := length s = Z.to_nat (channels c) /\ Forall channel_ok s.
Definition input_ok (c : config) (i : input) : Prop := Forall (sample_ok c) (samples i) /\ 0 <= diff_ratio i.
(* parameters accepted by the constructor *)
Definition config_ok (c : config) : Prop := (0 <= min_color c /\ 0 <= desc_offset c /\ 0 <= window c)%Z.

Definition unit (q : Q) : Prop := 0 <= q <= 1.

(* a sample at least as close in every channel *)
Definition closer (s s' : sample) : Prop := Forall2 (fun a b => (fst a <= fst b /\ snd a <= snd b)%Z) s s'.
(* a sample without any difference *)
Definition same (s : sample) : Prop := Forall (fun cd => cd = (0, 0)%Z) s.

(* When a sample counts as similar, for a pixel with distance factor r in an unstable region or not. *)
Definition colour_limit (c : config) (r : Q) (unstable : bool) : Z := Qfloor (r * inject_Z (min_color c) - (if unstable then 0 else inject_Z (min_color c / 5))).
Definition desc_limit (c : config) (r : Q) (unstable : bool) : Z := (2 ^ Qfloor (r + (1 # 2)) + (if unstable then 2 else 1) * desc_offset c)%Z.
Definition grey_sum (cd : Z * Z) : Z := Z.min (snd cd / 4 * 15 + fst cd) 255.
Definition colour_sum (cd : Z * Z) : Z := Z.min (snd cd / 2 * 15 + fst cd) 255.
Definition total (l : list Z) : Z := fold_right Z.add 0%Z l.
Definition similar (c : config) (r : Q) (unstable : bool) (s : sample) : Prop :=
  let a := colour_limit c r unstable in
  let b := desc_limit c r unstable in
  if grey c then exists cd, s = [cd] /\ (2 * fst cd <= a /\ 2 * grey_sum cd <= a /\ snd cd <= b)%Z
  else Forall (fun cd => 2 * fst cd <= 3 * a /\ 2 * colour_sum cd <= 3 * a)%Z s /\ (total (map colour_sum s) <= 3 * a /\ total (map snd s) <= 3 * b)%Z.

(* at least k samples of a list satisfy P *)
Definition at_least {A} (k : nat) (P : A -> Prop) (l : list A) : Prop :=
  exists ks, NoDup ks /\ length ks = k /\ forall j, In j ks -> exists s, nth_error l j = Some s /\ P s.
