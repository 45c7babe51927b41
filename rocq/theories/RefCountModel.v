(** Model of the reference counting in CommonC/Allocator.c 509-680 for one allocation: any number
    of threads retaining, freeing and setting the destructor, interleaved between the atomic accesses,
    under sequential consistency. refCount is an int32_t with wrapping atomic arithmetic.
    [static]: the allocation has a negative allocator index (line 598, 636): retain and free do nothing.
    [owner] bookkeeping is the client's and is not in the code: only the specification has it. *)
From Verif Require Import Base.
Local Open Scope Z_scope.

(** What a thread is doing: nothing, about to test and call the destructor (line 655), or about to
    deallocate (line 657-659). *)
Inductive pc := Idle | Destroying | Freeing.

Record state := mkState
  { static : bool; refCount : Z; destructor : option nat; released : bool; pcs : nat -> pc }.

(** CCMemoryAllocate, lines 534-541: the header of a fresh allocation. *)
Definition allocate (st : bool) : state := mkState st 1 None false (fun _ => Idle).

Definition tset {X} (f : nat -> X) (t : nat) (x : X) : nat -> X := fun u => if Nat.eqb u t then x else f u.

(** int32_t wrap-around of atomic_fetch_add and atomic_fetch_sub. *)
Definition wrap32 (z : Z) : Z := (z + 2 ^ 31) mod 2 ^ 32 - 2 ^ 31.

Inductive label :=
| Retain (t : nat) | RefCount (t : nat) | SetDestructor (t : nat) (d : option nat)
| Give (t u : nat)                       (* the client hands one of t's references to u *)
| Free (t : nat) | Step (t : nat).

(** Accesses carry whether the memory was still allocated. *)
Inductive event :=
| ERetain (t : nat) (ok : bool) | ECount (t : nat) (ok : bool) (n : Z) | ESet (t : nat) (ok : bool) (d : option nat)
| EGive (t u : nat) | EFree (t : nat) (ok : bool)
| EDestruct (d : option nat)              (* destructor called, or there was none *)
| EDealloc.

Definition step (s : state) (l : label) : option (state * event) :=
  let ok := negb (released s) in
  match l with
  | Retain t => (* lines 594-612 *)
      match pcs s t with
      | Idle => Some (if static s then s else mkState (static s) (wrap32 (refCount s + 1)) (destructor s) (released s) (pcs s), ERetain t ok)
      | _ => None end
  | RefCount t => (* lines 614-630 *)
      match pcs s t with
      | Idle => Some (s, ECount t ok (if static s then 2 ^ 31 - 1 else refCount s))
      | _ => None end
  | SetDestructor t d => (* lines 668-678 *)
      match pcs s t with
      | Idle => Some (mkState (static s) (refCount s) d (released s) (pcs s), ESet t ok d)
      | _ => None end
  | Give t u => match pcs s t with Idle => Some (s, EGive t u) | _ => None end
  | Free t => (* lines 632-649 *)
      match pcs s t with
      | Idle => if static s then Some (s, EFree t ok)
                else let count := wrap32 (refCount s - 1) in
                     Some (mkState (static s) count (destructor s) (released s)
                             (if count =? 0 then tset (pcs s) t Destroying else pcs s), EFree t ok)
      | _ => None end
  | Step t =>
      match pcs s t with
      | Idle => None
      | Destroying => (* line 657 *)
          Some (mkState (static s) (refCount s) (destructor s) (released s) (tset (pcs s) t Freeing), EDestruct (destructor s))
      | Freeing => (* lines 659-661 *)
          Some (mkState (static s) (refCount s) (destructor s) true (tset (pcs s) t Idle), EDealloc)
      end
  end.

Fixpoint run (s : state) (ls : list label) : option (state * list event) :=
  match ls with
  | [] => Some (s, [])
  | l :: t => let? (s', e) := step s l in
              let? (s'', es) := run s' t in Some (s'', e :: es)
  end.
