(** Model of who owns tasks: CommonC/Task.c 60-128 and TaskQueue.c 50-54, 83-164, with the nodes of ConcurrentQueue.c
    39-105, 112-134 and 147-184 and the reference counts of Allocator.c 594-612 and 632-678.
    Simplifications: calls come one after the other (what tasks and queues do under concurrent calls is TaskModel and
    TaskQueueModel; the queue of nodes is a list, which is what ConcurrentQueueModel shows it to be); allocations are named,
    and a name is never given out again; reference counts do not wrap; a queue has one owner, and a garbage collector of its own. *)
From Verif Require Import Base.

Inductive side := Input | Output.

(** A call of the destructor CCTaskCreate was given for the input or the output of this task *)
Definition event : Type := nat * side.

(** Task.c 60-65. The input and the output of task [t] are the blocks [(t, Input)] and [(t, Output)]. *)
Record task := mkTask { t_refs : nat; t_input : bool; t_output : bool; t_finished : bool }.

(** A node of a queue: its reference count and the task in its data, which its destructor releases. TaskQueue.c 104-108 *)
Record node := mkNode { n_refs : nat; n_task : option nat }.

(** TaskQueue.c 35-42. [q_head]: the node taken out last, or the one the queue was made with. [q_pending]: the nodes to be taken out, oldest
    first. [q_managed]: the nodes that were given to the garbage collector and not reclaimed yet. *)
Record queue := mkQueue { q_serial : bool; q_head : nat; q_pending : list nat; q_managed : list nat; q_last : option nat }.

Record state := mkState
  { datas : nat -> side -> option nat; tasks : nat -> option task; nodes : nat -> option node;
    queues : list (option queue); next_task : nat; next_node : nat }.

Definition init : state := mkState (fun _ _ => None) (fun _ => None) (fun _ => None) [] 0 0.

Definition side_eqb (a b : side) : bool := match a, b with Input, Input | Output, Output => true | _, _ => false end.

Definition set_data (s : state) (t : nat) (d : side) (x : option nat) : state :=
  mkState (fun u e => if (u =? t) && side_eqb e d then x else datas s u e) (tasks s) (nodes s) (queues s) (next_task s) (next_node s).
Definition set_task (s : state) (t : nat) (x : option task) : state :=
  mkState (datas s) (fun u => if u =? t then x else tasks s u) (nodes s) (queues s) (next_task s) (next_node s).
Definition set_node (s : state) (n : nat) (x : option node) : state :=
  mkState (datas s) (tasks s) (fun m => if m =? n then x else nodes s m) (queues s) (next_task s) (next_node s).
Definition set_queues (s : state) (qs : list (option queue)) : state := mkState (datas s) (tasks s) (nodes s) qs (next_task s) (next_node s).

(** ** CCFree: Allocator.c 632-666. [None]: memory that is gone is touched, or the assertion of line 650 fails. *)
Definition free_data (s : state) (t : nat) (d : side) : option (state * list event) :=
  match datas s t d with
  | None | Some 0 => None
  | Some 1 => Some (set_data s t d None, [(t, d)])
  | Some (S c) => Some (set_data s t d (Some c), [])
  end.

(** Task.c 70 and 71 *)
Definition free_side (s : state) (there : bool) (t : nat) (d : side) : option (state * list event) :=
  if there then free_data s t d else Some (s, []).

(** Task.c 68-72: CCTaskDestructor, when the last reference goes *)
Definition free_task (s : state) (t : nat) : option (state * list event) :=
  let? x := tasks s t in
  match t_refs x with
  | 0 => None
  | 1 =>
      let? (s, ev1) := free_side s (t_input x) t Input in
      let? (s, ev2) := free_side s (t_output x) t Output in
      Some (set_task s t None, ev1 ++ ev2)
  | S c => Some (set_task s t (Some (mkTask c (t_input x) (t_output x) (t_finished x))), [])
  end.

(** TaskQueue.c 104-108: CCTaskQueueNodeDestructor, when the last reference goes *)
Definition free_node (s : state) (n : nat) : option (state * list event) :=
  let? x := nodes s n in
  match n_refs x with
  | 0 => None
  | 1 =>
      let? (s, ev) := match n_task x with Some t => free_task s t | None => Some (s, []) end in
      Some (set_node s n None, ev)
  | S c => Some (set_node s n (Some (mkNode c (n_task x))), [])
  end.

(** Allocator.c 594-612: CCRetain of a task *)
Definition retain_task (s : state) (t : nat) : option state :=
  let? x := tasks s t in Some (set_task s t (Some (mkTask (S (t_refs x)) (t_input x) (t_output x) (t_finished x)))).

(** ** Task.c 74-121: CCTaskCreate. [input], [output]: whether there is a size for them; the rest says which allocations
    succeed. The handle that is returned. *)
Definition create (s : state) (input output ok ok_input ok_output : bool) : option (state * option nat * list event) :=
  if ok then
    let t := next_task s in
    let s := set_task (mkState (datas s) (tasks s) (nodes s) (queues s) (S t) (next_node s)) t (Some (mkTask 1 false false false)) in
    if input && negb ok_input then
      let? (s, ev) := free_task s t in Some (s, Some t, ev)   (* 93-95 *)
    else
      let s := if input then set_task (set_data s t Input (Some 1)) t (Some (mkTask 1 true false false)) else s in
      if output && negb ok_output then
        let? (s, ev) := free_task s t in Some (s, Some t, ev)   (* 109-111 *)
      else
        let s := if output then set_task (set_data s t Output (Some 1)) t (Some (mkTask 1 input true false)) else s in
        Some (s, Some t, [])
  else Some (s, None, []).

(** Task.c 130-144: CCTaskRun, called once and to its end. The function gets the input and the output. *)
Definition alive (s : state) (there : bool) (t : nat) (d : side) : bool :=
  if there then match datas s t d with Some _ => true | None => false end else true.

Definition run_task (s : state) (t : nat) : option state :=
  let? x := tasks s t in
  if alive s (t_input x) t Input && alive s (t_output x) t Output then
    Some (set_task s t (Some (mkTask (t_refs x) (t_input x) (t_output x) true)))
  else None.

(** ** The garbage collector of a queue reclaims some of the nodes it has, in some order: those of [sel] that it has.
    ConcurrentQueue.c 60-66: CCConcurrentQueueClearNode. *)
Fixpoint reclaim (s : state) (managed : list nat) (sel : list nat) : option (state * list nat * list event) :=
  match sel with
  | [] => Some (s, managed, [])
  | n :: t =>
      if existsb (Nat.eqb n) managed then
        let? (s, ev) := free_node s n in
        let? (s, m, evs) := reclaim s (filter (fun x => negb (x =? n)) managed) t in
        Some (s, m, ev ++ evs)
      else reclaim s managed t
  end.

(** ConcurrentQueue.c 147-184: CCConcurrentQueuePop. [sel]: what is reclaimed when the call ends. *)
Definition pop_node (s : state) (q : queue) (sel : list nat) : option (state * queue * option nat * list event) :=
  let? _ := nodes s (q_head q) in
  match q_pending q with
  | [] => let? (s, m, ev) := reclaim s (q_managed q) sel in Some (s, mkQueue (q_serial q) (q_head q) [] m (q_last q), None, ev)
  | n :: t =>
      let? (s, m, ev) := reclaim s (q_head q :: q_managed q) sel in
      Some (s, mkQueue (q_serial q) n t m (q_last q), Some n, ev)
  end.

(** ** TaskQueue.c 83-95: CCTaskQueueCreate; ConcurrentQueue.c 81-98 *)
Definition create_queue (s : state) (serial : bool) : state :=
  let n := next_node s in
  mkState (datas s) (tasks s) (fun m => if m =? n then Some (mkNode 1 None) else nodes s m)
    (queues s ++ [Some (mkQueue serial n [] [] None)]) (next_task s) (S n).

Definition get_queue (s : state) (i : nat) : option queue := match nth_error (queues s) i with Some (Some q) => Some q | _ => None end.

Fixpoint put_queue (qs : list (option queue)) (i : nat) (q : option queue) : list (option queue) :=
  match qs, i with
  | [], _ => []
  | _ :: t, 0 => q :: t
  | x :: t, S j => x :: put_queue t j q
  end.

(** TaskQueue.c 110-120: CCTaskQueuePush; ConcurrentQueue.c 39-51 and 117. The assertion that fails when there is no memory for
    the node is Allocator.c 670. *)
Definition push (s : state) (i t : nat) (ok : bool) : option (state) :=
  let? q := get_queue s i in
  if ok then
    let n := next_node s in
    Some (mkState (datas s) (tasks s) (fun m => if m =? n then Some (mkNode 2 (Some t)) else nodes s m)
      (put_queue (queues s) i (Some (mkQueue (q_serial q) (q_head q) (q_pending q ++ [n]) (q_managed q) (q_last q)))) (next_task s) (S n))
  else None.

Definition set_last (q : queue) (x : option nat) : queue := mkQueue (q_serial q) (q_head q) (q_pending q) (q_managed q) x.

(** TaskQueue.c 143-163, with the queue [q] at [i] *)
Definition take (s : state) (i : nat) (q : queue) (sel : list nat) : option (state * option nat * list event) :=
  let? (s, q, r, ev1) := pop_node s q sel in
  match r with
  | None => Some (set_queues s (put_queue (queues s) i (Some q)), None, ev1)
  | Some n =>
      let? x := nodes s n in
      let s := set_node s n (Some (mkNode (n_refs x) None)) in
      let? (s, ev2) := free_node s n in
      if q_serial q then
        let? t := n_task x in
        let? s := retain_task s t in
        Some (set_queues s (put_queue (queues s) i (Some (set_last q (Some t)))), Some t, ev1 ++ ev2)
      else Some (set_queues s (put_queue (queues s) i (Some q)), n_task x, ev1 ++ ev2)
  end.

(** 122-164: CCTaskQueuePop *)
Definition pop (s : state) (i : nat) (sel : list nat) : option (state * option nat * list event) :=
  let? q := get_queue s i in
  match q_serial q, q_last q with
  | true, Some t =>
      let? x := tasks s t in
      if t_finished x then
        let? (s, ev1) := free_task s t in
        let? (s, r, ev2) := take s i (set_last q None) sel in
        Some (s, r, ev1 ++ ev2)
      else Some (s, None, [])
  | _, _ => take s i q sel
  end.

(** ConcurrentQueue.c 68-79: CCConcurrentQueueDestructor, then the collector reclaims all it has. [sel k]: what it reclaims
    when call [k] ends, and, from [sel 0] on, in which order it reclaims the rest. *)
Fixpoint drain (fuel : nat) (s : state) (q : queue) (sel : nat -> list nat) : option (state * queue * list event) :=
  match fuel with
  | 0 => None
  | S f =>
      let? (s, q, r, ev1) := pop_node s q (sel fuel) in
      match r with
      | None => Some (s, q, ev1)
      | Some n =>
          let? (s, ev2) := free_node s n in
          let? (s, q, ev3) := drain f s q sel in
          Some (s, q, ev1 ++ ev2 ++ ev3)
      end
  end.

(** TaskQueue.c 97-102 and 50-54: CCTaskQueueDestroy *)
Definition destroy_queue (s : state) (i : nat) (sel : nat -> list nat) : option (state * list event) :=
  let? q := get_queue s i in
  let? (s, q, ev1) := drain (S (length (q_pending q))) s q sel in
  let? (s, ev2) := free_node s (q_head q) in
  let? (s, m, ev3) := reclaim s (q_managed q) (sel 0 ++ q_managed q) in
  let? (s, ev4) := match q_last q with Some t => free_task s t | None => Some (s, []) end in
  Some (set_queues s (put_queue (queues s) i None), ev1 ++ ev2 ++ ev3 ++ ev4).

(** ** Calls *)
Inductive op :=
| Create (input output ok ok_input ok_output : bool)
| Retain (t : nat)
| Destroy (t : nat)
| Run (t : nat)
| IsFinished (t : nat)
| CreateQueue (serial : bool)
| DestroyQueue (q : nat) (sel : nat -> list nat)
| Push (q t : nat) (ok : bool)
| Pop (q : nat) (sel : list nat).

Inductive ret := RUnit | RTask (t : option nat) | RBool (b : bool) | RQueue (q : nat).

Definition step (s : state) (o : op) : option (state * (ret * list event)) :=
  match o with
  | Create i u a b c => let? (s, r, ev) := create s i u a b c in Some (s, (RTask r, ev))
  | Retain t => let? s := retain_task s t in Some (s, (RUnit, []))
  | Destroy t => let? (s, ev) := free_task s t in Some (s, (RUnit, ev))
  | Run t => let? s := run_task s t in Some (s, (RUnit, []))
  | IsFinished t => let? x := tasks s t in Some (s, (RBool (t_finished x), []))
  | CreateQueue serial => Some (create_queue s serial, (RQueue (length (queues s)), []))
  | DestroyQueue i sel => let? (s, ev) := destroy_queue s i sel in Some (s, (RUnit, ev))
  | Push i t ok => let? s := push s i t ok in Some (s, (RUnit, []))
  | Pop i sel => let? (s, r, ev) := pop s i sel in Some (s, (RTask r, ev))
  end.

Fixpoint run (s : state) (ops : list op) : option (state * list (ret * list event)) :=
  match ops with
  | [] => Some (s, [])
  | o :: t => let? (s, x) := step s o in let? (s, xs) := run s t in Some (s, x :: xs)
  end.
