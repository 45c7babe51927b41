(** Model of CommonC/EpochGarbageCollector.c 139-327: any number of threads in begin/end sections,
    interleaved between atomic accesses, under sequential consistency.
    A load followed by a compare-exchange retried until it succeeds is one atomic step, as in
    LazyGCModel. The single-attempt compare-exchange of line 273 is not: it may fail at any time, and may
    succeed whenever the slot's count is zero now (its comparison of list pointers is not modelled, so
    the model also covers a recycled node at the same address); it takes whatever list is there.
    Lines 219-224 (one attempt, then a loop) decrement the count once: one atomic step.
    Simplifications: the 64-bit epoch and the 32-bit counts are unbounded; items are numbers
    and lists of nodes the lists of their items; allocation failure is not modelled. *)
From Verif Require Import Base.
Local Open Scope N_scope.

Inductive pc :=
| Outside
| BJoin (g : N)                              (* begin: about to join slot (g+2)%3, line 209 *)
| BCheck (g : N)                             (* about to reload the epoch, line 214 *)
| BLeave (slot g : N)                        (* about to leave the slot again, line 219 *)
| Inside (slot : N) (local : list nat)
| EPush (g slot : N) (local : list nat)      (* end: about to push and leave, lines 252-266 *)
| EStale (g : N)                             (* about to load the stale slot, line 269 *)
| ENext (g : N)                              (* about to load the next slot, line 272 *)
| ECas (g : N)                               (* about to detach the stale list, line 273 *)
| ECheck (g : N) (l : list nat)              (* about to reload the epoch, line 275 *)
| EDrain (g : N) (l : list nat)              (* draining, lines 228-240 *)
| RLoad (l : list nat)                       (* giving the list back: about to load the epoch, line 281 *)
| RJoin (g : N) (l : list nat)               (* line 285 *)
| RCheck (g : N) (l : list nat)              (* line 289 *)
| RLeave (slot g : N) (l : list nat)         (* line 302 *)
| RPush (g : N) (l : list nat).              (* line 292 *)

(** Lines 67-80 *)
Record state := mkState { managed : N -> list nat; refCount : N -> N; epoch : N; pcs : nat -> pc }.

(** Lines 155-158 *)
Definition init : state := mkState (fun _ => []) (fun _ => 0) 0 (fun _ => Outside).

Definition tset {X} (f : nat -> X) (t : nat) (x : X) : nat -> X := fun u => if Nat.eqb u t then x else f u.
Definition nset {X} (f : N -> X) (i : N) (x : X) : N -> X := fun j => if j =? i then x else f j.

Inductive label := Begin (t : nat) | Manage (t x : nat) | End_ (t : nat) | Step (t : nat) | CasFails (t : nat).
Inductive event := EBegin (t : nat) | EManage (t x : nat) | EEnd (t : nat) | EReclaim (x : nat) | ETau.

(** The slot new sections join in epoch g, lines 206 and 283. *)
Definition join (g : N) : N := (g + 2) mod 3.

Definition go (s : state) (t : nat) (p : pc) : state := mkState (managed s) (refCount s) (epoch s) (tset (pcs s) t p).
Definition enter (s : state) (t : nat) (i : N) (p : pc) : state :=
  mkState (managed s) (nset (refCount s) i (refCount s i + 1)) (epoch s) (tset (pcs s) t p).
Definition leave (s : state) (t : nat) (i : N) (l : list nat) (p : pc) : state :=
  mkState (nset (managed s) i (l ++ managed s i)) (nset (refCount s) i (refCount s i - 1)) (epoch s) (tset (pcs s) t p).

Definition step (s : state) (l : label) : option (state * event) :=
  match l with
  | Begin t => (* line 204 *)
      match pcs s t with Outside => Some (go s t (BJoin (epoch s)), ETau) | _ => None end
  | Manage t x => (* lines 314-327 *)
      match pcs s t with Inside i l => Some (go s t (Inside i (x :: l)), EManage t x) | _ => None end
  | End_ t => (* lines 249-250 *)
      match pcs s t with Inside i l => Some (go s t (EPush (epoch s) i l), ETau) | _ => None end
  | CasFails t =>
      match pcs s t with ECas g => Some (go s t Outside, ETau) | _ => None end
  | Step t =>
      match pcs s t with
      | Outside | Inside _ _ => None
      | BJoin g => Some (enter s t (join g) (BCheck g), ETau)
      | BCheck g => if epoch s =? g then Some (go s t (Inside (join g) []), EBegin t)
                    else Some (go s t (BLeave (join g) (epoch s)), ETau)
      | BLeave i g => Some (leave s t i [] (BJoin g), ETau)
      | EPush g i l => Some (leave s t i l (EStale g), EEnd t)
      | EStale g => if refCount s (g mod 3) =? 0 then Some (go s t (ENext g), ETau) else Some (go s t Outside, ETau)
      | ENext g => if refCount s ((g mod 3 + 1) mod 3) =? 0 then Some (go s t (ECas g), ETau) else Some (go s t Outside, ETau)
      | ECas g => if refCount s (g mod 3) =? 0
                  then Some (mkState (nset (managed s) (g mod 3) []) (refCount s) (epoch s)
                               (tset (pcs s) t (ECheck g (managed s (g mod 3)))), ETau)
                  else None
      | ECheck g l => if epoch s =? g then Some (go s t (EDrain g l), ETau)
                      else match l with [] => Some (go s t Outside, ETau) | _ => Some (go s t (RLoad l), ETau) end
      | EDrain g (x :: l) => Some (go s t (EDrain g l), EReclaim x)
      | EDrain g [] => (* line 239 *)
          Some (mkState (managed s) (refCount s) (if epoch s =? g then g + 1 else epoch s) (tset (pcs s) t Outside), ETau)
      | RLoad l => Some (go s t (RJoin (epoch s) l), ETau)
      | RJoin g l => Some (enter s t (join g) (RCheck g l), ETau)
      | RCheck g l => if epoch s =? g then Some (go s t (RPush g l), ETau)
                      else Some (go s t (RLeave (join g) (epoch s) l), ETau)
      | RLeave i g l => Some (leave s t i [] (RJoin g l), ETau)
      | RPush g l => Some (leave s t (join g) l Outside, ETau)
      end
  end.

Fixpoint run (s : state) (ls : list label) : option (state * list event) :=
  match ls with
  | [] => Some (s, [])
  | l :: t => let? (s', e) := step s l in
              let? (s'', es) := run s' t in Some (s'', e :: es)
  end.
