(** The pool as a user sees it: committed items are numbered in commit order and popped in that
    order, each once. *)
From Verif Require Import Base ConcurrentPoolModel.

Section Spec.
Context {A : Type}.
Variable Max : nat.

(** [log]: all items committed. [staged]: items pushed but not committed. [popped]: how many
    were popped. [high]: one more than the highest item number ever stored. [mine t]: the number
    of the item thread t popped last. [moved t]: whether the pool changed since t's pop began. *)
Record view := mkView
  { log : list A; staged : list A; popped : nat; high : nat; mine : nat -> option nat; moved : nat -> bool }.

Definition start : view := mkView [] [] 0 0 (fun _ => None) (fun _ => false).

Definition next (v : view) (e : event A) : view :=
  match e with
  | EBegin => mkView (log v) [] (popped v) (high v) (mine v) (moved v)
  | EPush x => mkView (log v) (staged v ++ [x]) (popped v)
                 (Nat.max (high v) (length (log v) + length (staged v) + 1)) (mine v) (moved v)
  | ECommitted => mkView (log v ++ staged v) [] (popped v) (high v) (mine v) (fun _ => true)
  | ELoad t => mkView (log v) (staged v) (popped v) (high v) (mine v) (tset (moved v) t false)
  | EPopped t => mkView (log v) (staged v) (popped v + 1) (high v) (tset (mine v) t (Some (popped v))) (fun _ => true)
  | _ => v
  end.

(** The producer's side: an item is pushed only while at most [Max] items, itself included, are
    staged or waiting to be popped. *)
Definition producer_ok (v : view) (e : event A) : Prop :=
  match e with
  | EPush _ => length (log v) + length (staged v) + 1 <= popped v + Max
  | _ => True
  end.

(** The pool's side. A successful pop takes the next committed item, number [popped v] (the
    item is the pop's alone since [popped] only grows), and its reference shows that item until
    something is stored [Max] places further on. A pop that fails found the pool empty, or lost
    to another change of the pool since it began (the weak variant may also fail spuriously). *)
Definition pool_ok (v : view) (e : event A) : Prop :=
  match e with
  | EPopped t => popped v < length (log v)
  | EEmpty t => popped v = length (log v)
  | ELost t spurious => spurious = true \/ moved v t = true
  | ELook t x => exists i, mine v t = Some i /\ i < length (log v) /\
                           (high v <= i + Max -> x = nth_error (log v) i)
  | _ => True
  end.

Fixpoint all (P : view -> event A -> Prop) (v : view) (es : list (event A)) : Prop :=
  match es with [] => True | e :: t => P v e /\ all P (next v e) t end.

End Spec.
Arguments view : clear implicits.
