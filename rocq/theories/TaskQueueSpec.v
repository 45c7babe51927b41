(** A queue handing out tasks one at a time, as its users see it. *)
From Verif Require Import Base TaskQueueModel.

(** [queued]: pushed and not taken, oldest first. [taken]: taken by a pop. [returned]: returned by a pop.
    [started], [ended]: tasks whose run has started, has ended. [calls]: pushes and pops in progress
    that have changed the queue. *)
Record view := mkView
  { queued : list nat; taken : list nat; returned : list nat; started : list nat; ended : list nat; calls : list nat }.
Definition start : view := mkView [] [] [] [] [] [].

Definition next (v : view) (e : event) : view :=
  match e with
  | EPush t x => mkView (queued v ++ [x]) (taken v) (returned v) (started v) (ended v) (t :: calls v)
  | EPushReturns t => mkView (queued v) (taken v) (returned v) (started v) (ended v) (remove Nat.eq_dec t (calls v))
  | ETake t x => mkView (tl (queued v)) (x :: taken v) (returned v) (started v) (ended v) (t :: calls v)
  | EPopReturns t x => mkView (queued v) (taken v) (x :: returned v) (started v) (ended v) (remove Nat.eq_dec t (calls v))
  | ERunStart x => mkView (queued v) (taken v) (returned v) (x :: started v) (ended v) (calls v)
  | ERunEnd x => mkView (queued v) (taken v) (returned v) (started v) (x :: ended v) (calls v)
  | ENull _ | EIsEmpty _ _ | ETau => v
  end.

(** Users push each task once, and run it at most once, after a pop has returned it. *)
Definition client_ok (v : view) (e : event) : Prop :=
  match e with
  | EPush _ x => ~ In x (queued v) /\ ~ In x (taken v)
  | ERunStart x => In x (returned v) /\ ~ In x (started v)
  | _ => True
  end.

(** Tasks are handed out in push order, each once. *)
Definition fifo_ok (v : view) (e : event) : Prop :=
  match e with
  | ETake _ x => hd_error (queued v) = Some x /\ ~ In x (taken v)
  | EPopReturns _ x => In x (taken v) /\ ~ In x (returned v)
  | _ => True
  end.

(** One at a time: when a pop takes a task, and when it returns it, every other task taken before has finished. *)
Definition serial_ok (v : view) (e : event) : Prop :=
  match e with
  | ETake _ _ => forall y, In y (taken v) -> In y (ended v)
  | EPopReturns _ x => forall y, In y (taken v) -> y <> x -> In y (ended v)
  | _ => True
  end.

(** When nobody is in the middle of a push or a pop, the emptiness test is exact. *)
Definition empty_ok (v : view) (e : event) : Prop :=
  match e with
  | EIsEmpty _ b => calls v = [] -> (N.of_nat (length (queued v)) < 2 ^ 64)%N -> (b = true <-> queued v = [])
  | _ => True
  end.

Fixpoint all (P : view -> event -> Prop) (v : view) (es : list event) : Prop :=
  match es with [] => True | e :: t => P v e /\ all P (next v e) t end.
