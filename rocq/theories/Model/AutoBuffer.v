(** lv::AutoBuffer of modules/utils/include/litiv/utils/cxx.hpp:722-817 and 1101-1375, over an explicit memory.
    A world holds any number of AutoBuffer objects (each with its own static capacity) and heap blocks. Cells are
    [option Z]; [None] is an indeterminate value. Every read or write goes through a block that must be live and long
    enough; otherwise, and on freeing a dead block, the result is a fault ([None]).
    Not modelled: alignment padding of the allocator, allocation failure, sizes near 2^64, element destructors. *)
From Coq Require Import List Arith Bool ZArith.
Import ListNotations.

Definition cell := option Z.
Inductive pointer := PStatic (o : nat) | PHeap (b : nat).
(** cxx.hpp:800-811 members *)
Record obj := Obj { nst : nat; stat : list cell; dyn : option nat; ptr : pointer; cap : nat; used : nat }.
Record world := World { objs : nat -> option obj; heap : nat -> option (list cell); next : nat }.

Definition fupd {T} (f : nat -> T) (i : nat) (v : T) : nat -> T := fun x => if x =? i then v else f x.
Definition set_obj (w : world) (o : nat) (x : option obj) : world := World (fupd (objs w) o x) (heap w) (next w).
Definition set_heap (w : world) (b : nat) (x : option (list cell)) : world := World (objs w) (fupd (heap w) b x) (next w).
Definition with_obj {T} (w : world) (o : nat) (k : obj -> option T) : option T :=
  match objs w o with Some ob => k ob | None => None end.

(** memory primitives *)
Definition alloc (w : world) (n : nat) : world * nat :=
  (World (objs w) (fupd (heap w) (next w) (Some (repeat None n))) (S (next w)), next w).
Definition free (w : world) (d : option nat) : option world :=
  match d with
  | None => Some w
  | Some b => match heap w b with Some _ => Some (set_heap w b None) | None => None end
  end.
Definition deref (w : world) (p : pointer) : option (list cell) :=
  match p with
  | PStatic o => match objs w o with Some ob => Some (stat ob) | None => None end
  | PHeap b => heap w b
  end.
Definition store (w : world) (p : pointer) (l : list cell) : world :=
  match p with
  | PStatic o => match objs w o with
                 | Some ob => set_obj w o (Some (Obj (nst ob) l (dyn ob) (ptr ob) (cap ob) (used ob)))
                 | None => w end
  | PHeap b => set_heap w b (Some l)
  end.
Definition read_n (w : world) (p : pointer) (n : nat) : option (list cell) :=
  match deref w p with Some l => if n <=? length l then Some (firstn n l) else None | None => None end.
Definition write_n (w : world) (p : pointer) (vs : list cell) : option world :=
  match deref w p with
  | Some l => if length vs <=? length l then Some (store w p (vs ++ skipn (length vs) l)) else None
  | None => None
  end.
Definition read_at (w : world) (p : pointer) (i : nat) : option cell :=
  match deref w p with Some l => nth_error l i | None => None end.
Definition write_at (w : world) (p : pointer) (i : nat) (v : cell) : option world :=
  match deref w p with
  | Some l => if i <? length l then Some (store w p (firstn i l ++ v :: skipn (S i) l)) else None
  | None => None
  end.
(** std::copy_n between live blocks *)
Definition copy_n (w : world) (src : pointer) (n : nat) (dst : pointer) : option world :=
  match read_n w src n with Some vs => write_n w dst vs | None => None end.

Definition bind {A B} (x : option A) (f : A -> option B) : option B := match x with Some a => f a | None => None end.
Notation "x <- e ; k" := (bind e (fun x => k)) (at level 60, e at level 50, k at level 60, right associativity).

Definition fields (ob : obj) (d : option nat) (p : pointer) (c u : nat) : obj := Obj (nst ob) (stat ob) d p c u.
Definition upd_obj (w : world) (o : nat) (f : obj -> obj) : option world :=
  with_obj w o (fun ob => Some (set_obj w o (Some (f ob)))).

(** m_aDynamicBuffer = <new unique_ptr or nullptr>: the old block is freed after the new one is in place *)
Definition assign_dyn (w : world) (o : nat) (d : option nat) : option world :=
  with_obj w o (fun ob =>
    free (set_obj w o (Some (fields ob d (ptr ob) (cap ob) (used ob)))) (dyn ob)).

(** pointing the object at its static array: m_pBufferPtr = m_aStaticBuffer.data(); m_nBufferSize = m_aStaticBuffer.size() *)
Definition use_static (w : world) (o : nat) : option world :=
  upd_obj w o (fun ob => fields ob (dyn ob) (PStatic o) (nst ob) (used ob)).
(** m_aDynamicBuffer = allocate(n); m_pBufferPtr = m_aDynamicBuffer.get(); m_nBufferSize = n *)
Definition use_dynamic (w : world) (o : nat) (n : nat) : option world :=
  let '(w1, b) := alloc w n in
  w2 <- assign_dyn w1 o (Some b);
  upd_obj w2 o (fun ob => fields ob (dyn ob) (PHeap b) n (used ob)).
Definition set_used (w : world) (o : nat) (n : nat) : option world :=
  upd_obj w o (fun ob => fields ob (dyn ob) (ptr ob) (cap ob) n).

(** an object before its constructor body: static array indeterminate, unique_ptr null; pointer and sizes are not initialised in
    the C++ and every constructor below sets them before use *)
Definition raw (w : world) (o ns : nat) : world := set_obj w o (Some (Obj ns (repeat None ns) None (PStatic o) ns 0)).

(** cxx.hpp:1101-1113 constructor *)
Definition ctor (w : world) (o ns n : nat) : option world :=
  let w := raw w o ns in
  if n <=? ns then (w1 <- use_static w o; set_used w1 o n)
  else (w1 <- use_dynamic w o n; set_used w1 o n).

(** the shared tail of copy/move: size, then std::copy_n(o.begin(),size,begin()) *)
Definition copy_elems (w : world) (o src : nat) : option world :=
  with_obj w src (fun s =>
    w1 <- set_used w o (used s);
    with_obj w1 o (fun ob => copy_n w1 (ptr s) (used s) (ptr ob))).

(** cxx.hpp:1115-1129 copy constructor from an AutoBuffer of another static size *)
Definition copy_ctor (w : world) (o ns src : nat) : option world :=
  let w := raw w o ns in
  with_obj w src (fun s =>
    w1 <- (if used s <=? ns then use_static w o else use_dynamic w o (used s));
    copy_elems w1 o src).

Definition is_dyn (ob : obj) : bool :=
  match ptr ob, dyn ob with PHeap b, Some d => b =? d | _, _ => false end.

(** std::swap(m_aDynamicBuffer,o.m_aDynamicBuffer) with a null own buffer, then the pointer/size hand-over *)
Definition take_dynamic (w : world) (o src : nat) : option world :=
  with_obj w src (fun s => with_obj w o (fun ob =>
    let w1 := set_obj w o (Some (Obj (nst ob) (stat ob) (dyn s) (match dyn s with Some b => PHeap b | None => ptr ob end) (cap s) (used s))) in
    Some (set_obj w1 src (Some (Obj (nst s) (stat s) None (PStatic src) (nst s) 0))))).

(** cxx.hpp:1131-1156 move constructor from another static size *)
Definition move_ctor (w : world) (o ns src : nat) : option world :=
  let w := raw w o ns in
  with_obj w src (fun s =>
    if is_dyn s then take_dynamic w o src
    else (w1 <- (if used s <=? ns then use_static w o else use_dynamic w o (used s));
          copy_elems w1 o src)).

(** cxx.hpp:1162-1171 the buffer choice of copy assignment (shared by the copying branch of move assignment) *)
Definition assign_choose (w : world) (o n : nat) : option world :=
  with_obj w o (fun ob =>
    if n <=? nst ob then (w1 <- assign_dyn w o None; use_static w1 o)
    else if negb (is_dyn ob) || (cap ob <? n) then use_dynamic w o n
    else Some w).
(** cxx.hpp:1158-1176 copy assignment from another static size (hence another object) *)
Definition copy_assign (w : world) (o src : nat) : option world :=
  with_obj w src (fun s => w1 <- assign_choose w o (used s); copy_elems w1 o src).
(** cxx.hpp:1178-1208 move assignment from another static size *)
Definition move_assign (w : world) (o src : nat) : option world :=
  with_obj w src (fun s =>
    if is_dyn s then (w1 <- assign_dyn w o None; take_dynamic w1 o src)
    else (w1 <- assign_choose w o (used s); copy_elems w1 o src)).

(** same static size: the templates above are not move constructors, so the implicit memberwise move is used; the static
    array is moved element-wise, the unique_ptr is emptied in the source, pointer and sizes are copied *)
Definition implicit_move_ctor (w : world) (o src : nat) : option world :=
  with_obj w src (fun s =>
    let w1 := set_obj w o (Some s) in
    Some (set_obj w1 src (Some (fields s None (ptr s) (cap s) (used s))))).

(** cxx.hpp:1305-1316 reserve and 1337-1343: reallocation keeping the used elements *)
Definition grow (w : world) (o n : nat) : option world :=
  with_obj w o (fun ob =>
    let '(w1, b) := alloc w n in
    w2 <- copy_n w1 (ptr ob) (used ob) (PHeap b);
    w3 <- assign_dyn w2 o (Some b);
    upd_obj w3 o (fun ob => fields ob (dyn ob) (PHeap b) n (used ob))).
Definition reserve (w : world) (o n : nat) : option world :=
  with_obj w o (fun ob => if n <=? cap ob then Some w else grow w o n).

(** cxx.hpp:1318-1328 *)
Definition resize_static (w : world) (o : nat) : option world :=
  with_obj w o (fun ob =>
    w1 <- (if is_dyn ob then
             let u := Nat.min (used ob) (nst ob) in
             w1 <- copy_n w (ptr ob) u (PStatic o);
             w2 <- upd_obj w1 o (fun ob => fields ob (dyn ob) (PStatic o) (nst ob) u);
             assign_dyn w2 o None
           else Some w);
    with_obj w1 o (fun ob => set_used w1 o (cap ob))).

(** cxx.hpp:1330-1346 *)
Definition resize (w : world) (o n : nat) : option world :=
  with_obj w o (fun ob =>
    w1 <- (if n =? 0 then (w1 <- assign_dyn w o None; use_static w1 o)
           else if cap ob <? n then grow w o n else Some w);
    set_used w1 o n).

(** cxx.hpp:1348-1353 *)
Definition clear (w : world) (o : nat) : option world :=
  w1 <- assign_dyn w o None; w2 <- use_static w1 o; set_used w2 o 0.

(** cxx.hpp:1355-1375 push_back(const value_type&): the argument is a reference, read only after the reallocation *)
Inductive arg := AVal (v : Z) | ARef (p : pointer) (i : nat).
Definition read_arg (w : world) (a : arg) : option cell :=
  match a with AVal v => Some (Some v) | ARef p i => read_at w p i end.
Definition push_back (w : world) (o : nat) (a : arg) : option world :=
  with_obj w o (fun ob =>
    w1 <- (if used ob =? cap ob then reserve w o (cap ob * 2) else Some w);
    v <- read_arg w1 a;
    with_obj w1 o (fun ob =>
      w2 <- write_at w1 (ptr ob) (used ob) v;
      set_used w2 o (S (used ob)))).

(** implicit destructor: the unique_ptr frees its block *)
Definition destroy (w : world) (o : nat) : option world :=
  with_obj w o (fun ob => free (set_obj w o None) (dyn ob)).

(** operator[] *)
Definition get (w : world) (o i : nat) : option cell := with_obj w o (fun ob => read_at w (ptr ob) i).
Definition put (w : world) (o i : nat) (v : Z) : option world := with_obj w o (fun ob => write_at w (ptr ob) i (Some v)).

(** cxx.hpp:1210-1224 at() with a signed index type: only the upper bound is checked. Some None = exception *)
Definition at_ (w : world) (o : nat) (i : Z) : option (option cell) :=
  with_obj w o (fun ob =>
    if (i <? Z.of_nat (used ob))%Z then
      (if (i <? 0)%Z then None else match read_at w (ptr ob) (Z.to_nat i) with Some c => Some (Some c) | None => None end)
    else Some None).

(** client operations; those that no C++ program can express (dead or already constructed object, same-size copies, which do
    not compile) leave the world unchanged *)
Inductive op :=
| Ctor (o ns n : nat) | CopyCtor (o ns src : nat) | MoveCtor (o ns src : nat) | CopyAssign (o src : nat) | MoveAssign (o src : nat)
| Reserve (o n : nat) | Resize (o n : nat) | ResizeStatic (o : nat) | Clear (o : nat)
| PushVal (o : nat) (v : Z) | PushElem (o src i : nat) | Put (o i : nat) (v : Z) | Get (o i : nat) | Destroy (o : nat).

Definition alive (w : world) (o : nat) : bool := match objs w o with Some _ => true | None => false end.
Definition nst_of (w : world) (o : nat) : nat := match objs w o with Some ob => nst ob | None => 0 end.

Definition exec (w : world) (p : op) : option world :=
  match p with
  | Ctor o ns n => if negb (alive w o) && (1 <=? ns) then ctor w o ns n else Some w
  | CopyCtor o ns s => if negb (alive w o) && (1 <=? ns) && alive w s && negb (ns =? nst_of w s) then copy_ctor w o ns s else Some w
  | MoveCtor o ns s =>
      if negb (alive w o) && (1 <=? ns) && alive w s then
        (if ns =? nst_of w s then implicit_move_ctor w o s else move_ctor w o ns s)
      else Some w
  | CopyAssign o s => if alive w o && alive w s && negb (nst_of w o =? nst_of w s) then copy_assign w o s else Some w
  | MoveAssign o s => if alive w o && alive w s && negb (nst_of w o =? nst_of w s) then move_assign w o s else Some w
  | Reserve o n => if alive w o then reserve w o n else Some w
  | Resize o n => if alive w o then resize w o n else Some w
  | ResizeStatic o => if alive w o then resize_static w o else Some w
  | Clear o => if alive w o then clear w o else Some w
  | PushVal o v => if alive w o then push_back w o (AVal v) else Some w
  | PushElem o s i => if alive w o && alive w s then with_obj w s (fun sb => push_back w o (ARef (ptr sb) i)) else Some w
  | Put o i v => if alive w o then put w o i v else Some w
  | Get o i => if alive w o then (_ <- get w o i; Some w) else Some w
  | Destroy o => if alive w o then destroy w o else Some w
  end.
Fixpoint run (w : world) (l : list op) : option world :=
  match l with [] => Some w | p :: r => w1 <- exec w p; run w1 r end.
Definition empty_world : world := World (fun _ => None) (fun _ => None) 0.
