(** A FIFO queue shared by threads, as its users see it. *)
From Verif Require Import Base ConcurrentQueueModel.

(** [queue]: the nodes pushed and not popped, oldest first. [used]: the nodes ever given to a push.
    [returned n]: the push of n has returned. [excuse t]: at some moment of t's pop the queue was empty, or
    the push of its oldest node had not returned. [empty t]: at some moment of it the queue was empty. *)
Record view := mkView
  { queue : list nat; used : list nat; returned : nat -> bool; excuse : nat -> bool; empty : nat -> bool }.
Definition start : view := mkView [] [0] (fun _ => false) (fun _ => false) (fun _ => false).

Definition is_empty (q : list nat) : bool := match q with [] => true | _ => false end.
Definition unready (r : nat -> bool) (q : list nat) : bool := match q with [] => true | n :: _ => negb (r n) end.

(** Every change is also a moment of every pop in progress. *)
Definition moment (v : view) : view :=
  mkView (queue v) (used v) (returned v)
    (fun u => excuse v u || unready (returned v) (queue v)) (fun u => empty v u || is_empty (queue v)).

Definition next (v : view) (e : event) : view :=
  match e with
  | EPush _ n => mkView (queue v) (n :: used v) (returned v) (excuse v) (empty v)
  | EPushed _ n => moment (mkView (queue v ++ [n]) (used v) (returned v) (excuse v) (empty v))
  | EPushReturns _ n => moment (mkView (queue v) (used v) (tset (returned v) n true) (excuse v) (empty v))
  | EPop t => mkView (queue v) (used v) (returned v)
                (tset (excuse v) t (unready (returned v) (queue v))) (tset (empty v) t (is_empty (queue v)))
  | EPopped _ _ => moment (mkView (tl (queue v)) (used v) (returned v) (excuse v) (empty v))
  | EEmpty _ | ETau => v
  end.

(** Users push each node once (and not the queue's own dummy). *)
Definition client_ok (v : view) (e : event) : Prop :=
  match e with EPush _ n => ~ In n (used v) | _ => True end.

(** A pop takes the oldest node. *)
Definition fifo_ok (v : view) (e : event) : Prop :=
  match e with
  | EPopped _ n => n <> None /\ hd_error (queue v) = n
  | _ => True
  end.

(** A pop that returns NULL has an excuse. *)
Definition excused (v : view) (e : event) : Prop :=
  match e with EEmpty t => excuse v t = true | _ => True end.

(** A pop that returns NULL saw the queue empty. *)
Definition null_means_empty (v : view) (e : event) : Prop :=
  match e with EEmpty t => empty v t = true | _ => True end.

Fixpoint all (P : view -> event -> Prop) (v : view) (es : list event) : Prop :=
  match es with [] => True | e :: t => P v e /\ all P (next v e) t end.
