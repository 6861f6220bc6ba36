(** Stacks of images read back from textures and their formats, numbered listings of shaders, and preallocated files:
    modules/utils/include/litiv/utils/opengl.hpp:127-408, modules/utils/src/opengl.cpp:157-198, modules/utils/src/platform.cpp:207-228.
    Bytes are integers. Not modelled: the reading from the device, constants of formats outside the tables (the default cases), and failures to open files. *)
From Coq Require Import ZArith List Bool Ascii.
Import ListNotations.
Open Scope Z_scope.

Inductive depth := U8 | F32 | S32.
(** the types accepted by isMatTypeSupported, opengl.hpp:146-160: a depth, with 1, 3 or 4 channels *)
Inductive chans := One | Three | Four.
Definition number (c : chans) : Z := match c with One => 1 | Three => 3 | Four => 4 end.
Inductive format := R8 | R8UI | R32UI | R32F | RGB32UI | RGB32F | RGBA8 | RGBA8UI | RGBA32UI | RGBA32F.
(** getInternalFormatFromMatType, opengl.hpp:162-184; None for lvError *)
Definition format_of (d : depth) (c : chans) (integral : bool) : option format :=
  match d, c with
  | U8, One => Some (if integral then R8UI else R8)
  | U8, _ => Some (if integral then RGBA8UI else RGBA8)
  | F32, One => Some R32F | F32, Three => Some RGB32F | F32, Four => Some RGBA32F
  | S32, One => if integral then Some R32UI else None
  | S32, Three => if integral then Some RGB32UI else None
  | S32, Four => if integral then Some RGBA32UI else None
  end.
(** getNormalizedIntegralFormatFromInternalFormat, opengl.hpp:186-204 *)
Definition normalized (f : format) : option format :=
  match f with R8UI => Some R8 | RGBA8UI => Some RGBA8 | R32UI | RGB32UI | RGBA32UI => None | _ => Some f end.
(** getIntegralFormatFromInternalFormat, opengl.hpp:206-225 *)
Definition integral_of (f : format) : option format :=
  match f with R8 => Some R8UI | RGBA8 => Some RGBA8UI | R32F | RGB32F | RGBA32F => None | _ => Some f end.
(** isInternalFormatIntegral, opengl.hpp:254-271 *)
Definition is_integral (f : format) : bool := match f with R8UI | R32UI | RGBA8UI | RGB32UI | RGBA32UI => true | _ => false end.
(** getMatTypeFromInternalFormat, opengl.hpp:273-297 *)
Definition type_of (f : format) : depth * chans :=
  match f with
  | R8UI | R8 => (U8, One) | RGBA8UI | RGBA8 => (U8, Four)
  | R32F => (F32, One) | RGB32F => (F32, Three) | RGBA32F => (F32, Four)
  | R32UI => (S32, One) | RGB32UI => (S32, Three) | RGBA32UI => (S32, Four)
  end.
(** getChannelsFromInternalFormat, opengl.hpp:386-408 *)
Definition channels_of (f : format) : chans :=
  match f with R8 | R8UI | R32F | R32UI => One | RGB32F | RGB32UI => Three | _ => Four end.
(** getByteSizeFromMatDepth, opengl.hpp:355-365 *)
Definition bytes_of (d : depth) : Z := match d with U8 => 1 | F32 | S32 => 4 end.

(** a product or sum of int, None when it overflows *)
Definition int (z : Z) : option Z := if (- 2 ^ 31 <=? z) && (z <? 2 ^ 31) then Some z else None.
(** [n] bytes of the buffer from [o] on *)
Definition slice (o n : Z) (buf : list Z) : list Z := firstn (Z.to_nat n) (skipn (Z.to_nat o) buf).
(** the loop of deepCopyImages, opengl.cpp:178-179, for the images from [k] on *)
Fixpoint copies (size k : Z) (todo : nat) (buf : list Z) : option (list (list Z)) :=
  match todo with
  | O => Some []
  | S t => match int (k * size) with
           | None => None
           | Some o => match copies size (k + 1) t buf with None => None | Some r => Some (slice o size buf :: r) end
           end
  end.
(** deepCopyImages, opengl.cpp:172-181: the bytes of each image; nImageSize is computed from left to right *)
Definition deep_copies (count : nat) (w h : Z) (c : chans) (d : depth) (buf : list Z) : option (list (list Z)) :=
  match int (h * w) with
  | None => None
  | Some a => match int (a * number c) with
              | None => None
              | Some b => match int (b * bytes_of d) with None => None | Some size => copies size 0 count buf end
              end
  end.

Definition nl : ascii := "010"%char.
(** addLineNumbersToString, opengl.cpp:183-198; [label] is the tabulator, if asked for, followed by the number as printed by cv::format *)
Fixpoint number_from (label : Z -> list ascii) (n : Z) (s : list ascii) : list ascii :=
  match s with
  | [] => []
  | c :: r => if Ascii.eqb c nl then nl :: label (n + 1) ++ number_from label (n + 1) r else c :: number_from label n r
  end.
Definition add_numbers (label : Z -> list ascii) (s : list ascii) : list ascii := match s with [] => [] | _ => label 1 ++ number_from label 1 s end.

(** the conversion of size_t to std::streampos, platform.cpp:213 *)
Definition to_pos (n : Z) : Z := if n <? 2 ^ 63 then n else n - 2 ^ 64.
(** the loop of platform.cpp:216-224: [cap] is the limit of a write, None on 64-bit platforms; None as result if [fuel] does not suffice *)
Fixpoint fill (cap : option Z) (fuel : nat) (left : Z) (file : list Z) : option (list Z) :=
  if left <=? 0 then Some file
  else match fuel with
       | O => None
       | S f => let k := match cap with None => left | Some c => Z.min c left end in fill cap f (left - k) (file ++ repeat 0 (Z.to_nat k))
       end.
(** createBinFileWithPrealloc, platform.cpp:207-228: the file afterwards; a file that did not exist is empty when opened, line 210 *)
Definition prealloc (cap : option Z) (old : list Z) (n : Z) : option (list Z) :=
  let size := Z.of_nat (length old) in
  if size <? to_pos n then fill cap (Z.to_nat (n - size)) (n - size) old else Some old.
