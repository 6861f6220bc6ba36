(** C29: image shift. *)
From Coq Require Import ZArith List Bool QArith Qround Qabs Lia Lqa.
From Verif Require Import Lib.Grid Model.Geometry Spec.Geometry Proofs.Geometry.
Import ListNotations.
Open Scope Z_scope.

Theorem C29_integer_shift_inside : forall img kx ky b fill out y x, shift img (inject_Z kx) (inject_Z ky) b fill = Some out ->
  Z.abs kx < icols img -> Z.abs ky < irows img ->
  0 <= y - ky < irows img -> 0 <= x - kx < icols img -> px out y x = px img (y - ky) (x - kx).
Proof. exact integer_shift_inside. Qed.
Print Assumptions C29_integer_shift_inside.

(** all pixels, all border types: the shifted image is the documented border extension read at the shifted position *)
Theorem C29_integer_shift : forall img kx ky b fill, Z.abs kx < icols img -> Z.abs ky < irows img ->
  exists out, shift img (inject_Z kx) (inject_Z ky) b fill = Some out /\
    forall y x, 0 <= y < irows img -> 0 <= x < icols img ->
     px out y x =
       match (match b with BConstant => if (0 <=? y - ky) && (y - ky <? irows img) then Some (y - ky) else None
              | BReplicate => Some (clamp (y - ky) (irows img)) | BReflect => Some (mirror (y - ky) (irows img))
              | BReflect101 => Some (mirror101 (y - ky) (irows img)) | BWrap => Some (wrap (y - ky) (irows img)) end),
             (match b with BConstant => if (0 <=? x - kx) && (x - kx <? icols img) then Some (x - kx) else None
              | BReplicate => Some (clamp (x - kx) (icols img)) | BReflect => Some (mirror (x - kx) (icols img))
              | BReflect101 => Some (mirror101 (x - kx) (icols img)) | BWrap => Some (wrap (x - kx) (icols img)) end)
       with Some y', Some x' => px img y' x' | _, _ => fill end.
Proof. exact integer_shift_border. Qed.
Print Assumptions C29_integer_shift.

(** fractional offsets: bilinear interpolation of the border extension at (y-dy, x-dx), except in the last row or column when the
    offset is not positive *)
Theorem C29_subpixel_shift : forall img dx dy b fill,
  let ix := Qceiling dx in let iy := Qceiling dy in let sx := (inject_Z ix - dx)%Q in let sy := (inject_Z iy - dy)%Q in
  (Qabs dx < inject_Z (icols img))%Q -> (Qabs dy < inject_Z (irows img))%Q ->
  (feps < sx \/ feps < sy \/ (sx == 0 /\ sy == 0))%Q ->
  exists out, shift img dx dy b fill = Some out /\ irows out = irows img /\ icols out = icols img /\
    forall y x, 0 <= y < irows img -> 0 <= x < icols img -> (0 < ix \/ x + 1 < icols img \/ (sx == 0)%Q) -> (0 < iy \/ y + 1 < irows img \/ (sy == 0)%Q) ->
    (px out y x == bilinear (extend img b fill) (y - iy) (x - ix) sy sx)%Q.
Proof. exact subpixel_shift. Qed.
Print Assumptions C29_subpixel_shift.
Theorem C29_subpixel_position : forall dx, (inject_Z (Qceiling dx) - dx < 1 /\ 0 <= inject_Z (Qceiling dx) - dx)%Q.
Proof. exact subpixel_position. Qed.
Print Assumptions C29_subpixel_position.

(** in the last column a negative fractional offset mixes in zeros even with a replicated border: a constant image does not stay constant *)
Theorem C29_last_column_refuted : exists img dx out, (forall y x, px img y x = 1)%Q /\ shift img dx 0 BReplicate 1 = Some out /\ (px out 0 (icols img - 1) == 1 # 2)%Q.
Proof. exists (Img 3 3 (fun _ _ => 1%Q)), (-1 # 2)%Q. eexists. split; [ reflexivity |]. split; [ reflexivity |]. vm_compute. reflexivity. Qed.
Print Assumptions C29_last_column_refuted.

Example C29_ex_wrap : exists out, shift (Img 2 3 (fun y x => inject_Z (10 * y + x))) 1 (-1) BWrap 0 = Some out /\
  map (fun p => px out (fst p) (snd p)) (grid 0 2 0 3) = map inject_Z [12; 10; 11; 2; 0; 1].
Proof. eexists. split; [ reflexivity |]. reflexivity. Qed.
Example C29_ex_sub : exists out, shift (Img 1 3 (fun y x => inject_Z (10 * x))) (1 # 4) 0 BReplicate 0 = Some out /\
  (px out 0 0 == 0 /\ px out 0 1 == 15 # 2 /\ px out 0 2 == 35 # 2)%Q.
Proof. eexists. split; [ reflexivity |]. vm_compute. repeat split. Qed.
