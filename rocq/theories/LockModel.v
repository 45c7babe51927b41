(** Model of the lock of virtual files and of the virtual volume (CommonC/FileSystem_Private.h 129-156), used by any number of
    threads. Each atomic operation is a step; the steps of the threads interleave (sequentially consistent memory). [data] stands
    for what the lock protects: threads that hold the lock for writing may change it. *)
From Verif Require Import Base.
Local Open Scope N_scope.

(** FS_VIRTUAL_FILE_WRITE_FLAG, FileSystem_Private.h 52: bit 31 of 32 *)
Definition write_flag : N := 2 ^ 31.
Definition has_flag (w : N) : bool := N.testbit w 31.
Definition word32 (n : N) : N := n mod 2 ^ 32.

(** Where a thread is: not using the lock; after the fetch-and-add of 131 when the flag was set, before the flag was seen clear
    (133); past FSVirtualReadLock; in the loop of FSVirtualWriteLock; past it *)
Inductive pc := Outside | WaitRead | Reading | WaitWrite | Writing.

Section Lock.
Variable A : Type.

Record state := mkState { lock : N; data : A; threads : list pc; assertion_failed : bool }.

Inductive action :=
| ReadLock    (** 131 *)
| ReadSpin    (** 133 *)
| ReadUnlock  (** 141-143 *)
| WriteLock   (** the call of FSVirtualWriteLock *)
| WriteTry (spurious : bool) (** 148: one compare-and-exchange, which may fail for no reason *)
| Change (a : A) (** what the program does to the data *)
| WriteUnlock (** 153-155 *).

Definition step (s : state) (i : nat) (l : action) : option state :=
  let? p := nth_error (threads s) i in
  match l, p with
  | ReadLock, Outside => Some (mkState (word32 (lock s + 1)) (data s) (upd (threads s) i (if has_flag (lock s) then WaitRead else Reading)) (assertion_failed s))
  | ReadSpin, WaitRead => Some (mkState (lock s) (data s) (upd (threads s) i (if has_flag (lock s) then WaitRead else Reading)) (assertion_failed s))
  | ReadUnlock, Reading => Some (mkState (word32 (lock s + 2 ^ 32 - 1)) (data s) (upd (threads s) i Outside) (assertion_failed s || has_flag (lock s)))
  | WriteLock, Outside => Some (mkState (lock s) (data s) (upd (threads s) i WaitWrite) (assertion_failed s))
  | WriteTry spurious, WaitWrite =>
      if (lock s =? 0) && negb spurious then Some (mkState write_flag (data s) (upd (threads s) i Writing) (assertion_failed s)) else Some s
  | Change a, Writing => Some (mkState (lock s) a (threads s) (assertion_failed s))
  | WriteUnlock, Writing => Some (mkState (N.lxor (lock s) write_flag) (data s) (upd (threads s) i Outside) (assertion_failed s || negb (has_flag (lock s))))
  | _, _ => None
  end.

(** ATOMIC_VAR_INIT(0): 165, and FileSystem.c 521 *)
Definition initial (n : nat) (a : A) : state := mkState 0 a (repeat Outside n) false.

Inductive reachable (n : nat) (a : A) : state -> Prop :=
| reach_initial : reachable n a (initial n a)
| reach_step s i l s' : reachable n a s -> step s i l = Some s' -> reachable n a s'.

End Lock.
Arguments mkState {A}. Arguments lock {A}. Arguments data {A}. Arguments threads {A}. Arguments assertion_failed {A}.
Arguments ReadLock {A}. Arguments ReadSpin {A}. Arguments ReadUnlock {A}. Arguments WriteLock {A}. Arguments WriteTry {A}. Arguments Change {A}. Arguments WriteUnlock {A}.
Arguments step {A}. Arguments initial {A}. Arguments reachable {A}.
