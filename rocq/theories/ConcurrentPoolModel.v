(** Model of CommonC/ConcurrentPoolTemplate.h: one producer and any number of consumers
    interleaved at every atomic access and every item store, under sequential consistency.
    [B] is 2^32 (2^16 on 32-bit platforms), the modulus of CCConcurrentPoolIndex (lines 35-39);
    [Max] is the pool size. Both ways of committing are modelled: the compare-exchange loop and
    the store used with mixed size atomics. *)
From Verif Require Import Base.
Local Open Scope N_scope.

Section Model.
Context {A : Type}.
Variables B Max : N.

(** Lines 41-44 *)
Record pointer := mkPtr { pindex : N; plast : N }.

(** Lines 76-83: the stage; the variant for mixed size atomics only has [slast]. *)
Record stage := mkStage { sptr : pointer; slast : N }.

(** A consumer inside Pop, having loaded the pointer. *)
Inductive cpc := CIdle | CLoaded (p : pointer).

(** [refs]: the slot each consumer's last successful pop returned a pointer to. *)
Record state := mkState
  { ptr : pointer; items : N -> option A; stg : option stage; cps : nat -> cpc; refs : nat -> option N }.

(** Line 58; the items are indeterminate. *)
Definition init : state :=
  mkState (mkPtr 0 0) (fun _ => None) None (fun _ => CIdle) (fun _ => None).

Definition ptr_eqb (p q : pointer) : bool := (pindex p =? pindex q) && (plast p =? plast q).

Definition iset (f : N -> option A) (i : N) (v : option A) : N -> option A :=
  fun j => if j =? i then v else f j.
Definition tset {X} (f : nat -> X) (t : nat) (x : X) : nat -> X :=
  fun u => if Nat.eqb u t then x else f u.

Inductive label :=
| PBegin                      (* StageBegin *)
| PPush (x : A)               (* StagePush *)
| PCommit (spurious : bool)   (* one iteration of the loop of StageCommit *)
| PCommitStore                (* StageCommit with mixed size atomics *)
| CLoad (t : nat)             (* Pop: the load and the test *)
| CCas (t : nat) (spurious : bool)  (* Pop: the compare-exchange; only the weak one may fail spuriously *)
| CLook (t : nat).            (* the consumer reads through the reference it popped *)

Inductive event :=
| EBegin | EPush (x : A) | ECommitted
| ELoad (t : nat)                       (* a pop found the pool non-empty and goes on *)
| EEmpty (t : nat)                      (* a pop returned FALSE because the pool was empty *)
| ELost (t : nat) (spurious : bool)     (* a pop returned FALSE because its exchange failed *)
| EPopped (t : nat)                     (* a pop returned TRUE *)
| ELook (t : nat) (v : option A)
| ETau.

Definition step (s : state) (l : label) : option (state * event) :=
  match l with
  | PBegin => (* lines 321-330 *)
      Some (mkState (ptr s) (items s) (Some (mkStage (ptr s) (plast (ptr s)))) (cps s) (refs s), EBegin)
  | PPush x => (* lines 332-339 *)
      match stg s with
      | Some st => Some (mkState (ptr s) (iset (items s) (slast st mod Max) (Some x))
                          (Some (mkStage (sptr st) ((slast st + 1) mod B))) (cps s) (refs s), EPush x)
      | None => None
      end
  | PCommit spurious => (* lines 341-348, second branch *)
      match stg s with
      | Some st =>
          if ptr_eqb (ptr s) (sptr st) && negb spurious
          then Some (mkState (mkPtr (pindex (sptr st)) (slast st)) (items s) (stg s) (cps s) (refs s), ECommitted)
          else Some (mkState (ptr s) (items s) (Some (mkStage (ptr s) (slast st))) (cps s) (refs s), ETau)
      | None => None
      end
  | PCommitStore => (* line 344 *)
      match stg s with
      | Some st => Some (mkState (mkPtr (pindex (ptr s)) (slast st)) (items s) (stg s) (cps s) (refs s), ECommitted)
      | None => None
      end
  | CLoad t => (* lines 280-282 / 297-299 *)
      match cps s t with
      | CIdle => if pindex (ptr s) =? plast (ptr s)
                 then Some (s, EEmpty t)
                 else Some (mkState (ptr s) (items s) (stg s) (tset (cps s) t (CLoaded (ptr s))) (refs s), ELoad t)
      | _ => None
      end
  | CCas t spurious => (* lines 284-292 / 301-309 *)
      match cps s t with
      | CLoaded p =>
          if ptr_eqb (ptr s) p && negb spurious
          then Some (mkState (mkPtr ((pindex p + 1) mod B) (plast p)) (items s) (stg s)
                       (tset (cps s) t CIdle) (tset (refs s) t (Some (pindex p mod Max))), EPopped t)
          else Some (mkState (ptr s) (items s) (stg s) (tset (cps s) t CIdle) (refs s), ELost t spurious)
      | _ => None
      end
  | CLook t =>
      match refs s t with
      | Some i => Some (s, ELook t (items s i))
      | None => None
      end
  end.

Fixpoint run (s : state) (ls : list label) : option (state * list event) :=
  match ls with
  | [] => Some (s, [])
  | l :: t => let? (s', e) := step s l in
              let? (s'', es) := run s' t in Some (s'', e :: es)
  end.

End Model.
Arguments state : clear implicits.
Arguments label : clear implicits.
Arguments event : clear implicits.
