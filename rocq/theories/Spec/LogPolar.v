From Coq Require Import ZArith List.
From Verif Require Import Model.LogPolar.
Open Scope Z_scope.
(** every entry is a valid index of a descriptor with nR*nA bins, and lies between the reported first and last raster positions *)
Definition valid_mask (n nR nA : Z) (r : mask_result) : Prop :=
  exists es f l, r = Mask es f l /\ length es = Z.to_nat (n * n) /\
    (forall i e, nth_error es i = Some (Some e) -> 0 <= e < nR * nA /\ f <= Z.of_nat i <= l) /\ 0 <= f < n * n /\ 0 <= l < n * n.
