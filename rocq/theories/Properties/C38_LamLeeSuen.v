(** C38: the Lam-Lee-Suen variant (the default mode) reads past its neighbour table. *)
From Coq Require Import ZArith List.
From Verif Require Import Model.Thinning Spec.Thinning Proofs.Thinning.
Import ListNotations.
Open Scope Z_scope.

(** a subiteration is free of out-of-bounds reads iff no interior foreground pixel has a background lower-right neighbour; this holds with and
    without the compile-time "fix" *)
Theorem C38_out_of_bounds_iff : forall fix_macro rows cols second f,
  lls_pass fix_macro rows cols second f = None <-> exists y x, inner rows cols y x /\ f y x <> 0 /\ f (y + 1) (x + 1) = 0.
Proof. exact lls_pass_none. Qed.
Print Assumptions C38_out_of_bounds_iff.

(** with a black last row and column, every image with an interior foreground pixel triggers it in the very first subiteration *)
Theorem C38_black_border_always : forall fix_macro rows cols second f, (forall x, f (rows - 1) x = 0) -> (forall y, f y (cols - 1) = 0) ->
  (lls_pass fix_macro rows cols second f = None <-> exists y x, inner rows cols y x /\ f y x <> 0).
Proof. exact lls_black_border. Qed.
Print Assumptions C38_black_border_always.

(** otherwise the subiteration only clears interior pixels *)
Theorem C38_otherwise_subset : forall fix_macro rows cols second f g, lls_pass fix_macro rows cols second f = Some g ->
  (forall y x, g y x = f y x \/ g y x = 0) /\ (forall y x, ~ inner rows cols y x -> g y x = f y x).
Proof. exact lls_pass_some. Qed.
Print Assumptions C38_otherwise_subset.

(** a single pixel triggers the read; a full image does not *)
Example C38_ex_dot : lls_pass false 5 5 false (fun y x => if ((y =? 2) && (x =? 2))%bool then 255 else 0) = None.
Proof. reflexivity. Qed.
Example C38_ex_full : exists g, lls_pass false 5 5 false (fun _ _ => 255) = Some g /\ g 2 2 = 255.
Proof. eexists. split; vm_compute; reflexivity. Qed.
