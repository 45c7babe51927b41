(** Model of CommonC/ConcurrentBuffer.c: any number of threads interleaved at every atomic
    access and every destructor call, under sequential consistency. Data are pointers; [None]
    is NULL. *)
From Verif Require Import Base.

(** A thread is idle or inside WriteData, about to call the destructor on a pointer. *)
Inductive tpc := TIdle | TDestroy (p : nat).

(** Lines 32-35; [alive] is false once the buffer itself has been destroyed. *)
Record state := mkState { destructor : bool; data : option nat; alive : bool; pcs : nat -> tpc }.

(** Lines 45-60, allocation succeeding. *)
Definition create (d : bool) : state := mkState d None true (fun _ => TIdle).

Definition set_pc (f : nat -> tpc) (t : nat) (p : tpc) : nat -> tpc :=
  fun u => if u =? t then p else f u.

Inductive label :=
| Write (t : nat) (d : option nat)       (* the exchange of WriteData *)
| Finish (t : nat)                       (* its destructor call *)
| WriteSwap (t : nat) (d : option nat)
| Read (t : nat)
| Destroy.                               (* the buffer's last reference is released *)

Inductive event :=
| EWrite (d : option nat)                (* d goes in, by WriteData *)
| EDropped (d : nat)                     (* d was replaced in a buffer without destructor *)
| EDestroyed (d : option nat)            (* the destructor was called with d *)
| ESwap (d r : option nat)               (* d goes in by WriteDataSwap, r is returned *)
| ERead (r : option nat)
| EGone.

(** The events of one step. [None]: not possible, or use after destruction. *)
Definition step (s : state) (l : label) : option (state * list event) :=
  if alive s then
    match l with
    | Write t d => (* lines 69-78 *)
        match pcs s t with
        | TIdle =>
            match data s, destructor s with
            | Some p, true => Some (mkState (destructor s) d true (set_pc (pcs s) t (TDestroy p)), [EWrite d])
            | Some p, false => Some (mkState (destructor s) d true (pcs s), [EWrite d; EDropped p])
            | None, _ => Some (mkState (destructor s) d true (pcs s), [EWrite d])
            end
        | _ => None
        end
    | Finish t => (* line 76 *)
        match pcs s t with
        | TDestroy p => Some (mkState (destructor s) (data s) true (set_pc (pcs s) t TIdle), [EDestroyed (Some p)])
        | _ => None
        end
    | WriteSwap t d => (* lines 80-85 *)
        match pcs s t with
        | TIdle => Some (mkState (destructor s) d true (pcs s), [ESwap d (data s)])
        | _ => None
        end
    | Read t => (* lines 87-90 *)
        match pcs s t with
        | TIdle => Some (mkState (destructor s) None true (pcs s), [ERead (data s)])
        | _ => None
        end
    | Destroy => (* lines 37-43: the destructor is called even on NULL *)
        Some (mkState (destructor s) None false (pcs s),
              (if destructor s then [EDestroyed (data s)]
               else match data s with Some p => [EDropped p] | None => [] end) ++ [EGone])
    end
  else
    match l with
    | Finish t => (* a destructor call already under way does not need the buffer *)
        match pcs s t with
        | TDestroy p => Some (mkState (destructor s) (data s) false (set_pc (pcs s) t TIdle), [EDestroyed (Some p)])
        | _ => None
        end
    | _ => None
    end.

Fixpoint run (s : state) (ls : list label) : option (state * list event) :=
  match ls with
  | [] => Some (s, [])
  | l :: t => let? (s', e) := step s l in
              let? (s'', es) := run s' t in Some (s'', e ++ es)
  end.
