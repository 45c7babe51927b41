(** A task as its users see it: which runs are in progress, which are inside the function, how many
    calls of the function have returned, and what the last one wrote. *)
From Verif Require Import Base TaskModel.

Record view := mkView { running : list nat; calling : list nat; returned : nat; ended : nat; written : nat }.
Definition start : view := mkView [] [] 0 0 0.

Definition drop (t : nat) (l : list nat) : list nat := remove Nat.eq_dec t l.

Definition next (v : view) (e : event) : view :=
  match e with
  | ERunStart t => mkView (t :: running v) (calling v) (returned v) (ended v) (written v)
  | ECall t => mkView (running v) (t :: calling v) (returned v) (ended v) (written v)
  | EReturn t w => mkView (running v) (drop t (calling v)) (S (returned v)) (ended v) w
  | ERunEnd t => mkView (drop t (running v)) (calling v) (returned v) (S (ended v)) (written v)
  | _ => v
  end.

(** Users: fewer than 2^32 runs at once. *)
Definition client_ok (v : view) (e : event) : Prop :=
  match e with
  | ERunStart _ => (N.of_nat (S (length (running v))) < 2 ^ 32)%N
  | _ => True
  end.

(** No run in progress, at least one has ended. *)
Definition finished (v : view) : Prop := running v = [] /\ ended v > 0.

(** The answer to "is it finished" is exact; waiting ends only when it is finished, so no thread is
    inside the function and the function has returned; the result is what the last call wrote. *)
Definition task_ok (v : view) (e : event) : Prop :=
  match e with
  | ETest _ b => b = true <-> finished v
  | EWaited _ => finished v /\ calling v = [] /\ returned v > 0
  | EResult _ w => finished v /\ calling v = [] /\ returned v > 0 /\ w = written v
  | _ => True
  end.

Fixpoint all (P : view -> event -> Prop) (v : view) (es : list event) : Prop :=
  match es with [] => True | e :: t => P v e /\ all P (next v e) t end.
