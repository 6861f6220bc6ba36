(** The asynchronous consumer that feeds an algorithm and an evaluator on the graphics card: IAsyncDataConsumer_<.,GLSL> (modules/datasets/include/litiv/datasets/utils.hpp:955-1201),
    the rings of textures and pixel buffers of GLImageProcAlgo and GLImageProcEvaluatorAlgo (modules/utils/src/opengl-imgproc.cpp:20-58, 110-180, 200-345, 590-757), and the region of
    interest the evaluator keeps (modules/datasets/include/litiv/datasets/eval.hpp:277-284).
    What an algorithm computes is not looked at: an event says which images it was given. Images are abstract; [None] is an empty matrix or undefined texture memory.
    Images fetched from the loader are values here (the code shares their data until the next request). Outputs go through a pixel buffer that is read back in the same call
    (opengl-imgproc.cpp:312-330, 380-388), so an output is the one of the images of its event. *)
From Coq Require Import List Bool Arith.
Import ListNotations.

Section Pipe.
Context {X : Type}.
Definition set_nth (n : nat) (v : option X) (l : list (option X)) : list (option X) := firstn n l ++ v :: skipn (S n) l.
(** textures and upload buffers of an algorithm: contents, layer in use, layer to fill, buffer to fill *)
Record ring := Ring { slots : list (option X); lay_curr : nat; lay_next : nat; bufs : list (option X); buf_next : nat }.
(** constructor (opengl-imgproc.cpp:44-49): the layers start at 0 and 1 *)
Definition ring_new : ring := Ring [] 0 1 [] 1.
(** initialize_gl (opengl-imgproc.cpp:116-175, 598-642): new textures; the layer in use and the one to fill hold the first image. Layer numbers are kept *)
Definition ring_init (layers : nat) (x : option X) (r : ring) : ring :=
  Ring (set_nth (lay_next r) x (set_nth (lay_curr r) x (repeat None layers))) (lay_curr r) (lay_next r) [x; x] (buf_next r).
(** apply_gl (opengl-imgproc.cpp:203-290, 686-737): layers and buffers advance, the next image is uploaded unless it is empty, the shader reads the layer in use.
    [pbo] is GLUTILS_IMGPROC_USE_DOUBLE_PBO_INPUT: the image goes to a buffer before, and from there to its layer after the shader *)
Definition ring_step (pbo : bool) (layers : nat) (x : option X) (r : ring) : ring * option X :=
  let cur := lay_next r in
  let nxt := (lay_next r + 1) mod layers in
  let bn := (buf_next r + 1) mod 2 in
  if pbo then
    let bufs' := match x with Some _ => set_nth bn x (bufs r) | None => bufs r end in
    (Ring (set_nth nxt (nth bn bufs' None) (slots r)) cur nxt bufs' bn, nth cur (slots r) None)
  else
    let slots' := match x with Some _ => set_nth nxt x (slots r) | None => slots r end in
    (Ring slots' cur nxt (bufs r) bn, nth cur slots' None).

(** the data set: number of inputs, of outputs expected, packets (empty past the end) and whether results are evaluated, shown or checked *)
Record source := Src { n_inputs : nat; n_gts : nat; inputs : nat -> option X; gts : nat -> option X; evaluating : bool; showing : bool }.
(** what one call does: the packet it counts, saves and shows; the images the algorithm and the evaluator read; those handed to the callback; the packet whose region
    of interest the evaluator uses *)
Record event := Evt { e_idx : nat; e_in : option X; e_gt : option X; e_shown_in : option X; e_shown_gt : option X; e_roi : nat }.
Record consumer := Con { idx_last : nat; idx_curr : nat; idx_next : nat; in_next : option X; gt_next : option X;
                         in_curr : option X; gt_curr : option X; in_last : option X; gt_last : option X; algo : ring; judge : ring; roi_of : nat }.
(** utils.hpp:1112-1115 *)
Definition con_new : consumer := Con 0 0 1 None None None None None None ring_new ring_new 0.
(** initialize_gl, utils.hpp:1093-1099, 1118-1141: [None] is a failed assertion *)
Definition con_init (layers : nat) (s : source) (c : consumer) : option consumer :=
  if n_gts s <=? 1 then None else
  let ci := inputs s (idx_curr c) in
  let cg := gts s (idx_curr c) in
  match ci, (if evaluating s then match cg with None => false | Some _ => true end else true) with
  | Some _, true =>
      Some (Con (idx_last c) (idx_curr c) (idx_next c) (inputs s (idx_next c)) (if evaluating s then gts s (idx_next c) else gt_next c)
                ci (if evaluating s then cg else gt_curr c) ci (if evaluating s then cg else gt_last c)
                (ring_init layers ci (algo c)) (if evaluating s then ring_init layers cg ring_new else judge c) (idx_curr c))
  | _, _ => None
  end.
(** apply_gl, utils.hpp:1101-1109, 1148-1199 *)
Definition con_apply (pbo : bool) (layers : nat) (s : source) (n : nat) (c : consumer) : consumer * event :=
  let same := n =? idx_next c in
  let ni := if same then in_next c else inputs s n in
  let ng := if evaluating s && negb same then gts s n else gt_next c in
  let '(a, seen) := ring_step pbo layers ni (algo c) in
  let '(j, against) := if evaluating s then ring_step pbo layers ng (judge c) else (judge c, None) in
  let li := if showing s then in_curr c else in_last c in
  let lg := if showing s && evaluating s then gt_curr c else gt_last c in
  let c' := Con (idx_curr c) n (n + 1)
                (if n + 1 <? n_inputs s then inputs s (n + 1) else ni)
                (if (n + 1 <? n_inputs s) && evaluating s then gts s (n + 1) else ng)
                (if showing s then ni else in_curr c) (if showing s && evaluating s then ng else gt_curr c) li lg a j (roi_of c) in
  (c', Evt (idx_curr c) seen against li lg (roi_of c)).
Fixpoint con_run (pbo : bool) (layers : nat) (s : source) (l : list nat) (c : consumer) : consumer * list event :=
  match l with
  | [] => (c, [])
  | n :: l => let '(c, e) := con_apply pbo layers s n c in let '(c, es) := con_run pbo layers s l c in (c, e :: es)
  end.
End Pipe.
Arguments ring : clear implicits. Arguments source : clear implicits. Arguments event : clear implicits. Arguments consumer : clear implicits.
