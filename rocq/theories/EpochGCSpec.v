(** What users of a garbage collector rely on. *)
From Verif Require Import Base EpochGCModel.

Inductive fate := NotHanded | Handed | Reclaimed.

(** [inside]: the threads in a section now. [holders x]: the threads that were in a section when x
    was handed over and are still in that section. *)
Record view := mkView { inside : list nat; holders : nat -> list nat; fates : nat -> fate }.
Definition start : view := mkView [] (fun _ => []) (fun _ => NotHanded).

Definition drop (t : nat) (l : list nat) : list nat := remove Nat.eq_dec t l.

Definition next (v : view) (e : event) : view :=
  match e with
  | EBegin t => mkView (t :: inside v) (holders v) (fates v)
  | EManage t x => mkView (inside v) (tset (holders v) x (inside v)) (tset (fates v) x Handed)
  | EEnd t => mkView (drop t (inside v)) (fun x => drop t (holders v x)) (fates v)
  | EReclaim x => mkView (inside v) (holders v) (tset (fates v) x Reclaimed)
  | ETau => v
  end.

(** Users: each item is handed over once. *)
Definition client_ok (v : view) (e : event) : Prop :=
  match e with
  | EManage _ x => fates v x = NotHanded
  | _ => True
  end.

(** The collector: it reclaims only items handed over and not yet reclaimed, and not before every
    thread that was inside at the hand-over has left. *)
Definition collector_ok (v : view) (e : event) : Prop :=
  match e with
  | EReclaim x => fates v x = Handed /\ holders v x = []
  | _ => True
  end.

Fixpoint all (P : view -> event -> Prop) (v : view) (es : list event) : Prop :=
  match es with [] => True | e :: t => P v e /\ all P (next v e) t end.
