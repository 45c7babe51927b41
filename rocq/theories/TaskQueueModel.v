(** Model of CommonC/TaskQueue.c 35-171: any number of threads pushing to, popping from and testing a task
    queue, and running tasks, interleaved at every shared access, under sequential consistency.
    The concurrent queue underneath is a FIFO whose pop may return NULL at any time: it does so
    only when C44 allows, so this model has more behaviours than the code. A task is tested through
    the interface C46 proves: finished once a run has ended and none is in progress. Tasks are numbers.
    Allocation failure, CCRetain and the destructors are not modelled. *)
From Verif Require Import Base.

Inductive pc :=
| Idle
| PushCount                    (* about to count the pushed task, line 119 *)
| PopTest                      (* lock held, about to look at lastTask, line 130 *)
| PopQueue                     (* about to pop the queue, line 143 *)
| PopNull                      (* about to clear the lock and return NULL, lines 134, 146 *)
| PopLast (x : nat)            (* about to set lastTask, line 157 *)
| PopUnlock (x : nat)          (* about to clear the lock, line 158 *)
| PopCount (x : nat).          (* about to uncount, line 161 *)

(** Lines 35-42, and the state of every task (Task.c 55-65). *)
Record state := mkState
  { tasks : list nat; lock : bool; last : option nat; count : N;
    running : nat -> nat; completed : nat -> bool; pcs : nat -> pc }.

(** Line 91, and tasks never run. *)
Definition init : state := mkState [] false None 0 (fun _ => 0) (fun _ => false) (fun _ => Idle).

Definition tset {X} (f : nat -> X) (t : nat) (x : X) : nat -> X := fun u => if Nat.eqb u t then x else f u.
Definition w64 : N := 2 ^ 64.

Inductive label :=
| Push (t x : nat)             (* lines 110-118: the queue push takes effect *)
| Pop (t : nat)                (* lines 122-128: entry and test-and-set *)
| Step (t : nat)
| QueueNull (t : nat)          (* line 143, the queue's pop returning NULL *)
| RunStart (x : nat) | RunEnd (x : nat)       (* Task.c 134-143 *)
| IsEmpty (t : nat).           (* lines 166-171 *)

Inductive event :=
| EPush (t x : nat) | EPushReturns (t : nat)
| ETake (t x : nat) | EPopReturns (t x : nat) | ENull (t : nat)
| ERunStart (x : nat) | ERunEnd (x : nat) | EIsEmpty (t : nat) (b : bool) | ETau.

Definition go (s : state) (t : nat) (p : pc) : state :=
  mkState (tasks s) (lock s) (last s) (count s) (running s) (completed s) (tset (pcs s) t p).
Definition set_lock (s : state) (b : bool) : state :=
  mkState (tasks s) b (last s) (count s) (running s) (completed s) (pcs s).
Definition set_last (s : state) (x : option nat) : state :=
  mkState (tasks s) (lock s) x (count s) (running s) (completed s) (pcs s).
Definition set_count (s : state) (c : N) : state :=
  mkState (tasks s) (lock s) (last s) c (running s) (completed s) (pcs s).
Definition set_tasks (s : state) (q : list nat) : state :=
  mkState q (lock s) (last s) (count s) (running s) (completed s) (pcs s).

Definition step (serial : bool) (s : state) (l : label) : option (state * event) :=
  match l with
  | Push t x => match pcs s t with Idle => Some (go (set_tasks s (tasks s ++ [x])) t PushCount, EPush t x) | _ => None end
  | Pop t =>
      match pcs s t with
      | Idle =>
          if serial
          then if lock s then Some (s, ENull t) else Some (go (set_lock s true) t PopTest, ETau)
          else Some (go s t PopQueue, ETau)
      | _ => None
      end
  | QueueNull t => match pcs s t with PopQueue => Some (go s t PopNull, ETau) | _ => None end
  | Step t =>
      match pcs s t with
      | Idle => None
      | PushCount => Some (go (set_count s ((count s + 1) mod w64)) t Idle, EPushReturns t)
      | PopTest =>
          match last s with
          | None => Some (go s t PopQueue, ETau)
          | Some x => if completed s x then Some (go (set_last s None) t PopQueue, ETau) else Some (go s t PopNull, ETau)
          end
      | PopQueue =>
          match tasks s with
          | [] => Some (go s t PopNull, ETau)
          | x :: q => Some (go (set_tasks s q) t (if serial then PopLast x else PopCount x), ETake t x)
          end
      | PopNull => Some (go (set_lock s false) t Idle, ENull t)
      | PopLast x => Some (go (set_last s (Some x)) t (PopUnlock x), ETau)
      | PopUnlock x => Some (go (set_lock s false) t (PopCount x), ETau)
      | PopCount x => Some (go (set_count s ((count s + (w64 - 1)) mod w64)) t Idle, EPopReturns t x)
      end
  | RunStart x =>
      Some (mkState (tasks s) (lock s) (last s) (count s) (tset (running s) x (S (running s x))) (tset (completed s) x false) (pcs s),
            ERunStart x)
  | RunEnd x =>
      match running s x with
      | 0 => None
      | S r => Some (mkState (tasks s) (lock s) (last s) (count s) (tset (running s) x r) (tset (completed s) x (Nat.eqb r 0)) (pcs s),
                     ERunEnd x)
      end
  | IsEmpty t => match pcs s t with Idle => Some (s, EIsEmpty t (N.eqb (count s) 0)) | _ => None end
  end.

Fixpoint run (serial : bool) (s : state) (ls : list label) : option (state * list event) :=
  match ls with
  | [] => Some (s, [])
  | l :: t => let? (s', e) := step serial s l in
              let? (s'', es) := run serial s' t in Some (s'', e :: es)
  end.
