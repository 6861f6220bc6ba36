(** Abstract growable vectors: what a client sees of each buffer is a list of cells. Independent of the model's memory. *)
From Coq Require Import List Arith ZArith.
Import ListNotations.

(** indices at which both lists have an element agree *)
Definition agree {T} (l l' : list T) : Prop :=
  forall i, i < length l -> i < length l' -> nth_error l' i = nth_error l i.

(** what every buffer looks like: [None] = not alive *)
Definition views (T : Type) := nat -> option (list T).
Definition same_but {T} (P : nat -> Prop) (V V' : views T) : Prop := forall x, ~ P x -> V' x = V x.

Section Steps.
Context {T : Type}.
Implicit Types V : views T.

Definition becomes (o : nat) (R : list T -> list T -> Prop) (V V' : views T) : Prop :=
  same_but (fun x => x = o) V V' /\ exists l l', V o = Some l /\ V' o = Some l' /\ R l l'.

Definition sp_construct (o n : nat) V V' : Prop :=
  same_but (fun x => x = o) V V' /\ exists l, V' o = Some l /\ length l = n.
Definition sp_copy (o src : nat) V V' : Prop :=
  same_but (fun x => x = o) V V' /\ V' o = V src.
(** after a move the destination has the source's elements; the source is left as it was or empty *)
Definition sp_move (o src : nat) V V' : Prop :=
  same_but (fun x => x = o \/ x = src) V V' /\ V' o = V src /\ (V' src = V src \/ V' src = Some []).
Definition sp_reserve (o : nat) V V' : Prop := same_but (fun _ => False) V V'.
Definition sp_resize (o n : nat) V V' : Prop := becomes o (fun l l' => length l' = n /\ agree l l') V V'.
Definition sp_clear (o : nat) V V' : Prop := becomes o (fun _ l' => l' = []) V V'.
Definition sp_push (o : nat) (v : T) V V' : Prop := becomes o (fun l l' => l' = l ++ [v]) V V'.
Definition sp_put (o i : nat) (v : T) V V' : Prop :=
  becomes o (fun l l' => length l' = length l /\ nth_error l' i = Some v /\
                         forall j, j <> i -> nth_error l' j = nth_error l j) V V'.
Definition sp_destroy (o : nat) V V' : Prop := same_but (fun x => x = o) V V' /\ V' o = None.
End Steps.

(** The contract of every client operation in terms of what clients see before ([V]) and after ([V']); [ss] gives each live
    object's static size. Operations that no program can express change nothing. *)
From Verif Require Import Model.AutoBuffer.
Open Scope nat_scope.
Definition contract (ss : nat -> nat) (p : op) (V V' : views cell) : Prop :=
  let live o := V o <> None in
  let dead o := V o = None in
  let unchanged := same_but (fun _ => False) V V' in
  match p with
  | Ctor o ns n => (dead o /\ 1 <= ns -> sp_construct o n V V') /\ (~ (dead o /\ 1 <= ns) -> unchanged)
  | CopyCtor o ns s => (dead o /\ 1 <= ns /\ live s /\ ns <> ss s -> sp_copy o s V V') /\
                       (~ (dead o /\ 1 <= ns /\ live s /\ ns <> ss s) -> unchanged)
  | MoveCtor o ns s => (dead o /\ 1 <= ns /\ live s -> sp_move o s V V') /\ (~ (dead o /\ 1 <= ns /\ live s) -> unchanged)
  | CopyAssign o s => (live o /\ live s /\ ss o <> ss s -> sp_copy o s V V') /\ (~ (live o /\ live s /\ ss o <> ss s) -> unchanged)
  | MoveAssign o s => (live o /\ live s /\ ss o <> ss s -> sp_move o s V V') /\ (~ (live o /\ live s /\ ss o <> ss s) -> unchanged)
  | Reserve o n => unchanged
  | Resize o n => (live o -> sp_resize o n V V') /\ (dead o -> unchanged)
  | ResizeStatic o => (live o -> sp_resize o (ss o) V V') /\ (dead o -> unchanged)
  | Clear o => (live o -> sp_clear o V V') /\ (dead o -> unchanged)
  | PushVal o v => (live o -> sp_push o (Some v) V V') /\ (dead o -> unchanged)
  | PushElem o s i => (forall l c, live o -> V s = Some l -> nth_error l i = Some c -> sp_push o c V V') /\
                      (dead o \/ dead s -> unchanged)
  | Put o i v => (live o -> sp_put o i (Some v) V V') /\ (dead o -> unchanged)
  | Get o i => unchanged
  | Destroy o => (live o -> sp_destroy o V V') /\ (dead o -> unchanged)
  end.

(** what the client sees of object [x] *)
Definition view (w : world) (x : nat) : option (list cell) :=
  match objs w x with
  | Some ob => match deref w (ptr ob) with Some l => Some (firstn (used ob) l) | None => None end
  | None => None
  end.

(** what a client must respect: indices within size, no same-size move (that is the implicit member), and no push_back of an element
    of the same buffer when that buffer is full and on the heap *)
Definition size (w : world) (o : nat) : nat := match view w o with Some l => length l | None => 0 end.
Definition full (w : world) (o : nat) : bool := match objs w o with Some ob => used ob =? cap ob | None => false end.
Definition is_static (w : world) (o : nat) : bool := match objs w o with Some ob => negb (is_dyn ob) | None => true end.
Definition legal (w : world) (p : op) : Prop :=
  match p with
  | MoveCtor o ns s => ns <> nst_of w s
  | PushElem o s i => i < size w s /\ (s = o -> full w o = false \/ is_static w o = true)
  | Put o i _ | Get o i => i < size w o
  | _ => True
  end.

Fixpoint legal_run (w : world) (l : list op) : Prop :=
  match l with [] => True | p :: r => legal w p /\ forall w', exec w p = Some w' -> legal_run w' r end.

(** worlds a well-behaved client can get to *)
Definition reachable (w : world) : Prop := exists l, legal_run empty_world l /\ run empty_world l = Some w.
