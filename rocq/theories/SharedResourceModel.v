(** Model of CommonC/ConcurrentSharedResourceTemplate.h: any number of threads interleaved at
    every atomic access and every access to a node's data, under sequential consistency.
    [size_t] is 64 bits. Data are named by numbers, [None] is the zero value a slot starts with.
    The template parameters are [Tmax] (number of slots) and [unlimited]. Tshare reads the
    datum and gives the reader its own share; Tdestructor is an event. *)
From Verif Require Import Base.
Local Open Scope N_scope.

Section Model.
Variable Tmax : N.
Variable unlimited : bool.

Definition word : N := 2 ^ 64.

Inductive pc :=
| Idle
| SIndex (d : nat)                                   (* Set: about to load current *)
| SLoad (idx : N) (d : nat)                          (* about to load nodes[idx].refs *)
| SCas (idx : N) (d : nat)                           (* about to compare-exchange it *)
| SData (idx : N) (d : nat)                          (* about to replace nodes[idx].data *)
| SExch (idx : N) (stale : option nat) (d : nat)     (* about to exchange current *)
| SSub (prev count : N) (stale : option nat)         (* about to subtract from the previous refs *)
| SDestroy (stale : option nat)                      (* about to call the destructor *)
| GShare (idx : N)                                   (* Get: about to share the datum *)
| GRefs (idx : N) (data : option nat)                (* about to add to refs *)
| GLoad (idx : N) (data : option nat)                (* about to reload current *)
| GLoop (idx : N) (cur : N) (data : option nat)      (* about to test / compare-exchange *)
| GUnref (idx : N) (data : option nat).              (* about to take back its refs *)

(** ConcurrentSharedResource.h 48-54 *)
Record state := mkState { current : N; refs : N -> N; data : N -> option nat; pcs : nat -> pc }.

(** CC_CONCURRENT_SHARED_RESOURCE_INIT, template line 47: nodes[0].refs = 1, everything else zero. *)
Definition init : state :=
  mkState 0 (fun i => if i =? 0 then 1 else 0) (fun _ => None) (fun _ => Idle).

Definition nset {X} (f : N -> X) (i : N) (x : X) : N -> X := fun j => if j =? i then x else f j.
Definition tset {X} (f : nat -> X) (t : nat) (x : X) : nat -> X := fun u => if Nat.eqb u t then x else f u.

Inductive label := SetStart (t d : nat) | GetStart (t : nat) | Step (t : nat).

Inductive event :=
| ESetStart (t d : nat) | EPublished (d : nat) | EDestroyed (d : option nat)
| EGetStart (t : nat) | EShared (t : nat) (d : option nat) | EGot (t : nat) (d : option nat) | ETau.

(** Modular arithmetic of size_t. *)
Definition add64 (a b : N) : N := (a + b) mod word.
Definition sub64 (a b : N) : N := (a + (word - b)) mod word.

Definition go (s : state) (t : nat) (p : pc) : state := mkState (current s) (refs s) (data s) (tset (pcs s) t p).

(** [None]: not possible, or an access outside nodes[]. *)
Definition step (s : state) (l : label) : option (state * event) :=
  match l with
  | SetStart t d => match pcs s t with Idle => Some (go s t (SIndex d), ESetStart t d) | _ => None end
  | GetStart t => (* line 100 *)
      match pcs s t with
      | Idle => Some (mkState (add64 (current s) 1) (refs s) (data s)
                        (tset (pcs s) t (GShare (N.shiftr (current s) 16))), EGetStart t)
      | _ => None
      end
  | Step t =>
      match pcs s t with
      | Idle => None
      | SIndex d => (* line 77 *)
          Some (go s t (SLoad ((N.shiftr (current s) 16 + 1) mod Tmax) d), ETau)
      | SLoad i d => (* line 78, first operand *)
          if i <? Tmax then
            if refs s i =? 0 then Some (go s t (SCas i d), ETau)
            else Some (go s t (SLoad ((i + 1) mod Tmax) d), ETau)
          else None
      | SCas i d => (* line 78, second operand *)
          if i <? Tmax then
            if refs s i =? 0
            then Some (mkState (current s) (nset (refs s) i 1) (data s) (tset (pcs s) t (SData i d)), ETau)
            else Some (go s t (SLoad ((i + 1) mod Tmax) d), ETau)
          else None
      | SData i d => (* lines 82-85 *)
          Some (mkState (current s) (refs s) (nset (data s) i (Some d)) (tset (pcs s) t (SExch i (data s i) d)), ETau)
      | SExch i st d => (* lines 87-88 *)
          Some (mkState (N.shiftl i 16) (refs s) (data s)
                  (tset (pcs s) t (SSub (N.shiftr (current s) 16) (N.shiftl (N.land (current s) 0xffff) 1) st)),
                EPublished d)
      | SSub p c st => (* line 90 *)
          if p <? Tmax then
            Some (mkState (current s) (nset (refs s) p (sub64 (refs s p) (N.lor c 1))) (data s)
                    (tset (pcs s) t (SDestroy st)), ETau)
          else None
      | SDestroy st => (* line 94 *)
          Some (go s t Idle, EDestroyed st)
      | GShare i => (* line 102 *)
          if i <? Tmax then Some (go s t (GRefs i (data s i)), EShared t (data s i)) else None
      | GRefs i d => (* line 106 *)
          let s' := mkState (current s) (nset (refs s) i (add64 (refs s i) 2)) (data s)
                      (tset (pcs s) t (if unlimited then GLoad i d else Idle)) in
          Some (s', if unlimited then ETau else EGot t d)
      | GLoad i d => (* line 110 *)
          Some (go s t (GLoop i (current s) d), ETau)
      | GLoop i cur d => (* lines 112-118 *)
          if N.shiftr cur 16 =? i then
            if current s =? cur
            then Some (mkState (sub64 cur 1) (refs s) (data s) (tset (pcs s) t (GUnref i d)), ETau)
            else Some (go s t (GLoop i (current s) d), ETau)
          else Some (go s t Idle, EGot t d)
      | GUnref i d => (* line 116 *)
          Some (mkState (current s) (nset (refs s) i (sub64 (refs s i) 2)) (data s) (tset (pcs s) t Idle), EGot t d)
      end
  end.

Fixpoint run (s : state) (ls : list label) : option (state * list event) :=
  match ls with
  | [] => Some (s, [])
  | l :: t => let? (s', e) := step s l in
              let? (s'', es) := run s' t in Some (s'', e :: es)
  end.

End Model.
