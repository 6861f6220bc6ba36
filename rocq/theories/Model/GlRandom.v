(* Random numbers in shaders. GLShader::getShaderFunctionSource_urand and _urand_tinymt32, modules/utils/src/opengl-shaders.cpp lines 801-874;
   lv::gl::TMT32GenParams::initTinyMT32Generators, modules/utils/src/opengl.cpp lines 200-235. *)
From Coq Require Import NArith ZArith List.
Import ListNotations.
Open Scope N_scope.

Definition w32 (x : N) : N := x mod 2 ^ 32.
Definition shl (x k : N) : N := w32 (N.shiftl x k).

(* opengl-shaders.cpp lines 804-810: one round of the one-at-a-time hash; the value is also the next seed *)
Definition urand (seed : N) : N :=
  let a := w32 (seed + shl seed 10) in
  let b := N.lxor a (N.shiftr a 6) in
  let c := w32 (b + shl b 3) in
  let d := N.lxor c (N.shiftr c 11) in
  w32 (d + shl d 15).

(* TMT32Model, lines 849-855: the status, and the parameters that opengl.cpp:214-216 stores *)
Record status := { s0 : N; s1 : N; s2 : N; s3 : N }.
Record params := { mat1 : N; mat2 : N; tmat : N }.
Definition litiv : params := {| mat1 := 4060945272; mat2 := 4287692773; tmat := 821813247 |}. (* 0xF20D1B78, 0xFF90FFE5, 0x30FBDFFF *)
Definition low31 : N := 2147483647. (* 0x7fffffff *)
(* -int(b&1)&m *)
Definition if_odd (b m : N) : N := if N.testbit b 0 then m else 0.
(* opengl-shaders.cpp:857-866, opengl.cpp:221-230 *)
Definition next_state (g : params) (p : status) : status :=
  let y := s3 p in
  let x := N.lxor (N.lxor (N.land (s0 p) low31) (s1 p)) (s2 p) in
  let x := N.lxor x (shl x 1) in
  let y := N.lxor y (N.lxor (N.shiftr y 1) x) in
  {| s0 := s1 p; s1 := N.lxor (s2 p) (if_odd y (mat1 g)); s2 := N.lxor (N.lxor x (shl y 10)) (if_odd y (mat2 g)); s3 := y |}.
(* opengl-shaders.cpp:867-871 *)
Definition tempered (g : params) (p : status) : N :=
  let t1 := w32 (s0 p + N.shiftr (s2 p) 8) in
  N.lxor (N.lxor (s3 p) t1) (if_odd t1 (tmat g)).
Definition tiny_urand (g : params) (p : status) : N * status := let q := next_state g p in (tempered g q, q).

(* opengl.cpp:213-219 *)
Definition get (p : status) (i : N) : N := match i with 0 => s0 p | 1 => s1 p | 2 => s2 p | _ => s3 p end.
Definition set (p : status) (i v : N) : status :=
  match i with
  | 0 => {| s0 := v; s1 := s1 p; s2 := s2 p; s3 := s3 p |}
  | 1 => {| s0 := s0 p; s1 := v; s2 := s2 p; s3 := s3 p |}
  | 2 => {| s0 := s0 p; s1 := s1 p; s2 := v; s3 := s3 p |}
  | _ => {| s0 := s0 p; s1 := s1 p; s2 := s2 p; s3 := v |}
  end.
Definition spread (loop prev : N) : N := w32 (loop + w32 (1812433253 * N.lxor prev (N.shiftr prev 30))).
Definition mix (p : status) (loop : N) : status := set p (N.land loop 3) (N.lxor (get p (N.land loop 3)) (spread loop (get p (N.land (loop - 1) 3)))).
Definition seeded (g : params) (r : N) : status := fold_left mix [1; 2; 3; 4; 5; 6; 7] {| s0 := r; s1 := mat1 g; s2 := mat2 g; s3 := tmat g |}.
(* and eight steps: lines 220-231 *)
Definition initial (g : params) (r : N) : status := N.iter 8 (next_state g) (seeded g r).
(* the state after n numbers, and number n *)
Definition after (g : params) (r n : N) : status := N.iter n (next_state g) (initial g r).
Definition drawn (g : params) (r n : N) : N := fst (tiny_urand g (after g r n)).

(* GLShader::getShaderFunctionSource_getRandNeighbor3x3, opengl-shaders.cpp lines 769-789: position and random number. The result of clamp is not used: the border and the size of the frame have no effect. *)
Definition neighbours : list (Z * Z) := [(-1, 1); (0, 1); (1, 1); (-1, 0); (1, 0); (-1, -1); (0, -1); (1, -1)]%Z.
Definition rand_neighbour (border width height : Z) (p : Z * Z) (r : N) : Z * Z :=
  let d := nth (N.to_nat (r mod 8)) neighbours (0, 0)%Z in (fst p + fst d, snd p + snd d)%Z.
