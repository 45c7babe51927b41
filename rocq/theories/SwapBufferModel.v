(** Model of CommonC/ConcurrentSwapBufferTemplate.h: one producer and one consumer
    interleaved at every atomic access, under sequential consistency (the memory_order
    arguments are not modelled). [Buffer->write] is only touched by the producer and
    [Buffer->read] only by the consumer, so those private accesses are merged with the
    neighbouring atomic step. A slot's content is one value of type [A], stored whole. *)
From Verif Require Import Base.
Local Open Scope N_scope.

Section Model.
Context {A : Type}.

(** ConcurrentSwapBufferTemplate.h 35 *)
Definition FLAG : N := 0x80.

(** Where the producer is inside CCConcurrentSwapBufferApply, and the consumer inside
    CCConcurrentSwapBufferRead. *)
Inductive wpc := WIdle | WLoaded (next : N).
Inductive rpc := RIdle | RLoaded.

(** ConcurrentSwapBuffer.h: { buffer[3], index, write, read } *)
Record state := mkState { index : N; write : N; read : N; buffer : N -> A; wp : wpc; rp : rpc }.

(** ConcurrentSwapBufferTemplate.h 37, every slot holding the same initial value. *)
Definition init (v0 : A) : state := mkState 0 1 2 (fun _ => v0) WIdle RIdle.

Definition flagged (x : N) : bool := negb (N.land x FLAG =? 0).

Definition bset (b : N -> A) (i : N) (v : A) : N -> A := fun j => if j =? i then v else b j.

(** What each thread may do next. *)
Inductive label :=
| WPut (v : A)      (* the producer stores a value through the pointer of GetFuture *)
| WApplyLoad        (* first atomic access of Apply *)
| WApplyStore       (* second atomic access of Apply, which then returns *)
| RReadLoad         (* first atomic access of Read; Read returns if nothing is flagged *)
| RReadSwap         (* second atomic access of Read, which then returns *)
| RLook.            (* the consumer dereferences the pointer of its last Read *)

(** What can be observed: the value put, a publication, a completed Read, a value seen. *)
Inductive event := EPut (v : A) | EApplied | EReadDone | ELook (v : A) | ETau.

(** One step; [None]: the label is not possible in this state. *)
Definition step (s : state) (l : label) : option (state * event) :=
  match l with
  | WPut v => (* lines 68-71 give the pointer &buffer[write] *)
      match wp s with
      | WIdle => Some (mkState (index s) (write s) (read s) (bset (buffer s) (write s) v) (wp s) (rp s), EPut v)
      | _ => None
      end
  | WApplyLoad => (* line 75 *)
      match wp s with
      | WIdle => Some (mkState (index s) (write s) (read s) (buffer s) (WLoaded (index s)) (rp s), ETau)
      | _ => None
      end
  | WApplyStore => (* lines 77-87 *)
      match wp s with
      | WLoaded next =>
          let next' := if flagged next then index s else next in
          Some (mkState (N.lor (write s) FLAG) (N.ldiff next' FLAG) (read s) (buffer s) WIdle (rp s), EApplied)
      | _ => None
      end
  | RReadLoad => (* lines 92-94, and 101 when the test fails *)
      match rp s with
      | RIdle =>
          if flagged (index s)
          then Some (mkState (index s) (write s) (read s) (buffer s) (wp s) RLoaded, ETau)
          else Some (s, EReadDone)
      | _ => None
      end
  | RReadSwap => (* lines 96-98 and 101 *)
      match rp s with
      | RLoaded =>
          Some (mkState (read s) (write s) (N.lxor (index s) FLAG) (buffer s) (wp s) RIdle, EReadDone)
      | _ => None
      end
  | RLook => (* the pointer returned by line 101 is &buffer[read] *)
      match rp s with
      | RIdle => Some (s, ELook (buffer s (read s)))
      | _ => None
      end
  end.

Fixpoint run (s : state) (ls : list label) : option (state * list event) :=
  match ls with
  | [] => Some (s, [])
  | l :: t => let? (s', e) := step s l in
              let? (s'', es) := run s' t in Some (s'', e :: es)
  end.

End Model.
Arguments state : clear implicits.
Arguments label : clear implicits.
Arguments event : clear implicits.
