(** Reference counting as its users see it. *)
From Verif Require Import Base RefCountModel.

(** [owners]: one entry per reference held, naming the holder. [dtor]: the destructor set last.
    [destroyed], [deallocated]: how many times the destructor phase and the deallocation ran. *)
Record view := mkView { owners : list nat; dtor : option nat; destroyed : nat; deallocated : nat }.
Definition start (t : nat) : view := mkView [t] None 0 0.

(** Take one occurrence out of a list. *)
Fixpoint take_one (t : nat) (l : list nat) : list nat :=
  match l with [] => [] | u :: r => if Nat.eqb u t then r else u :: take_one t r end.

Definition next (v : view) (e : event) : view :=
  match e with
  | ERetain t _ => mkView (t :: owners v) (dtor v) (destroyed v) (deallocated v)
  | EGive t u => mkView (u :: take_one t (owners v)) (dtor v) (destroyed v) (deallocated v)
  | EFree t _ => mkView (take_one t (owners v)) (dtor v) (destroyed v) (deallocated v)
  | ESet _ _ d => mkView (owners v) d (destroyed v) (deallocated v)
  | EDestruct _ => mkView (owners v) (dtor v) (S (destroyed v)) (deallocated v)
  | EDealloc => mkView (owners v) (dtor v) (destroyed v) (S (deallocated v))
  | ECount _ _ _ => v
  end.

(** Users: only a thread that holds a reference touches the memory, gives a reference away or frees
    one, and fewer than 2^31 - 1 references exist at once. *)
Definition client_ok (v : view) (e : event) : Prop :=
  match e with
  | ERetain t _ => In t (owners v) /\ (Z.of_nat (length (owners v)) + 1 < 2 ^ 31)%Z
  | ECount t _ _ | ESet t _ _ | EGive t _ | EFree t _ => In t (owners v)
  | _ => True
  end.

(** The allocator: the memory is there for whoever holds a reference, the count is the number of
    references, the destructor runs once, when no reference is held, and it is the one set last;
    deallocation follows it, once. *)
Definition memory_ok (v : view) (e : event) : Prop :=
  match e with
  | ERetain _ ok | ESet _ ok _ | EFree _ ok => ok = true
  | ECount _ ok n => ok = true /\ n = Z.of_nat (length (owners v))
  | EGive _ _ => True
  | EDestruct d => owners v = [] /\ destroyed v = 0 /\ d = dtor v
  | EDealloc => owners v = [] /\ destroyed v = 1 /\ deallocated v = 0
  end.

(** Static memory is never destroyed or deallocated. *)
Definition static_ok (v : view) (e : event) : Prop :=
  match e with
  | EDestruct _ | EDealloc => False
  | ERetain _ ok | ESet _ ok _ | EFree _ ok => ok = true
  | ECount _ ok n => ok = true /\ n = (2 ^ 31 - 1)%Z
  | _ => True
  end.

Fixpoint all (P : view -> event -> Prop) (v : view) (es : list event) : Prop :=
  match es with [] => True | e :: t => P v e /\ all P (next v e) t end.
