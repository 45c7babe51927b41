From Verif Require Import Base LockModel.

(** A thread that writes is alone; there may be any number that read. *)
Definition exclusive (ts : list pc) : Prop :=
  forall i j, nth_error ts i = Some Writing -> nth_error ts j = Some Writing \/ nth_error ts j = Some Reading -> i = j.

Definition at_ (ts : list pc) (i : nat) (p : pc) : Prop := nth_error ts i = Some p.

(** Nobody holds the lock *)
Definition unheld (ts : list pc) : Prop := forall i, ~ at_ ts i Reading /\ ~ at_ ts i Writing.
