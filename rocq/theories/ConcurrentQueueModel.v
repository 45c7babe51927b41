(** Model of CommonC/ConcurrentQueue.c 33-184: any number of threads pushing and popping,
    interleaved at every atomic access, under sequential consistency. Nodes are numbers, 0 is the dummy
    node made by Create, NULL is [None]. Tags are uint32_t and wrap. Weak compare-exchanges may
    fail at any time. The garbage collector keeps the nodes a call still looks at from being freed
    (C42, C43), so memory is never reused here; its calls are not modelled, nor is CCRetain. *)
From Verif Require Import Base.

Definition tagmod : N := 2 ^ 32.
Record ptr := mkPtr { node : option nat; tag : N }.
Definition inc (t : N) : N := ((t + 1) mod tagmod)%N.
Definition dec (t : N) : N := ((t + (tagmod - 1)) mod tagmod)%N.
Definition ptr_eqb (a b : ptr) : bool := (* lines 107-110 *)
  match node a, node b with
  | Some x, Some y => Nat.eqb x y
  | None, None => true
  | _, _ => false
  end && N.eqb (tag a) (tag b).

Inductive pc :=
| Idle
| PushLoad (n : nat)                        (* about to load tail, line 123 *)
| PushNext (n : nat) (tl : ptr)             (* about to store next, line 125 *)
| PushCas (n : nat) (tl : ptr)              (* about to compare-exchange tail, line 126 *)
| PushPrev (n : nat) (tl : ptr)             (* about to store prev, line 128 *)
| PopHead                                   (* about to load head, line 155 *)
| PopTail (hd : ptr)                        (* about to load tail, line 155 *)
| PopPrev (hd tl : ptr)                     (* about to load the head's prev, line 156 *)
| PopCheck (hd tl fp : ptr)                 (* about to reload head, line 158 *)
| PopCas (hd fp : ptr)                      (* about to compare-exchange head, line 168 *)
| FixTest (cur hd : ptr)                    (* FixList: about to test, line 138 *)
| FixNext (cur hd : ptr)                    (* about to load next, line 140 *)
| FixPrev (cur hd nx : ptr).                (* about to store prev, line 141 *)

(** Lines 33-37, and the next and prev of each node. *)
Record state := mkState { head : ptr; tail : ptr; nexts : nat -> ptr; prevs : nat -> ptr; pcs : nat -> pc }.

Definition null : ptr := mkPtr None 0.

(** Lines 89-91 *)
Definition init : state := mkState (mkPtr (Some 0) 0) (mkPtr (Some 0) 0) (fun _ => null) (fun _ => null) (fun _ => Idle).

Definition tset {X} (f : nat -> X) (t : nat) (x : X) : nat -> X := fun u => if Nat.eqb u t then x else f u.

Inductive label := Push (t n : nat) | Pop (t : nat) | Step (t : nat) | CasFails (t : nat).
Inductive event :=
| EPush (t n : nat) | EPushed (t n : nat) | EPushReturns (t n : nat)
| EPop (t : nat) | EPopped (t : nat) (n : option nat) | EEmpty (t : nat) | ETau.

Definition go (s : state) (t : nat) (p : pc) : state := mkState (head s) (tail s) (nexts s) (prevs s) (tset (pcs s) t p).

(** [None]: not possible, or a NULL node dereferenced. *)
Definition step (s : state) (l : label) : option (state * event) :=
  match l with
  | Push t n => match pcs s t with Idle => Some (go s t (PushLoad n), EPush t n) | _ => None end
  | Pop t => match pcs s t with Idle => Some (go s t PopHead, EPop t) | _ => None end
  | CasFails t =>
      match pcs s t with
      | PushCas n _ => Some (go s t (PushLoad n), ETau)
      | PopCas _ _ => Some (go s t PopHead, ETau)
      | _ => None
      end
  | Step t =>
      match pcs s t with
      | Idle => None
      | PushLoad n => Some (go s t (PushNext n (tail s)), ETau)
      | PushNext n tl =>
          Some (mkState (head s) (tail s) (tset (nexts s) n (mkPtr (node tl) (inc (tag tl)))) (prevs s)
                  (tset (pcs s) t (PushCas n tl)), ETau)
      | PushCas n tl =>
          if ptr_eqb (tail s) tl
          then Some (mkState (head s) (mkPtr (Some n) (inc (tag tl))) (nexts s) (prevs s) (tset (pcs s) t (PushPrev n tl)),
                     EPushed t n)
          else None
      | PushPrev n tl =>
          let? x := node tl in
          Some (mkState (head s) (tail s) (nexts s) (tset (prevs s) x (mkPtr (Some n) (tag tl))) (tset (pcs s) t Idle),
                EPushReturns t n)
      | PopHead => Some (go s t (PopTail (head s)), ETau)
      | PopTail hd => Some (go s t (PopPrev hd (tail s)), ETau)
      | PopPrev hd tl => let? x := node hd in Some (go s t (PopCheck hd tl (prevs s x)), ETau)
      | PopCheck hd tl fp => (* lines 158-177 *)
          if ptr_eqb hd (head s)
          then match node fp with
               | Some _ =>
                   if ptr_eqb tl hd then Some (go s t Idle, EEmpty t)
                   else if negb (N.eqb (tag fp) (tag hd)) then Some (go s t (FixTest tl hd), ETau)
                   else Some (go s t (PopCas hd fp), ETau)
               | None => Some (go s t Idle, EEmpty t)
               end
          else Some (go s t PopHead, ETau)
      | PopCas hd fp =>
          if ptr_eqb (head s) hd
          then Some (mkState (mkPtr (node fp) (inc (tag hd))) (tail s) (nexts s) (prevs s) (tset (pcs s) t Idle),
                     EPopped t (node fp))
          else None
      | FixTest cur hd =>
          if ptr_eqb hd (head s) && negb (ptr_eqb cur hd) then Some (go s t (FixNext cur hd), ETau)
          else Some (go s t PopHead, ETau)
      | FixNext cur hd => let? x := node cur in Some (go s t (FixPrev cur hd (nexts s x)), ETau)
      | FixPrev cur hd nx =>
          let? x := node nx in
          Some (mkState (head s) (tail s) (nexts s) (tset (prevs s) x (mkPtr (node cur) (dec (tag cur))))
                  (tset (pcs s) t (FixTest (mkPtr (node nx) (dec (tag cur))) hd)), ETau)
      end
  end.

Fixpoint run (s : state) (ls : list label) : option (state * list event) :=
  match ls with
  | [] => Some (s, [])
  | l :: t => let? (s', e) := step s l in
              let? (s'', es) := run s' t in Some (s'', e :: es)
  end.
