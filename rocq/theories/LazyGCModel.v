(** Model of CommonC/LazyGarbageCollector.c 135-255: any number of threads in begin/end sections,
    interleaved between atomic accesses, under sequential consistency. Each load followed by a
    compare-exchange retried until it succeeds is one atomic step (the exchange replaced the value
    loaded, failed attempts change nothing others see; linking the local tail to the loaded
    list, line 226, is private until then). Items are named by numbers, lists of nodes by the list of
    their items. Allocation failure and thread-local storage failure are not modelled. *)
From Verif Require Import Base.
Local Open Scope N_scope.

(** A thread is outside, inside with its local list (lines 128-131), or draining (201-211). *)
Inductive pc := Outside | Inside (local : list nat) | Draining (l : list nat).

(** Lines 65-77 *)
Record state := mkState { managed : list nat; refCount : N; pcs : nat -> pc }.

(** Line 151 *)
Definition init : state := mkState [] 0 (fun _ => Outside).

Definition tset {X} (f : nat -> X) (t : nat) (x : X) : nat -> X := fun u => if Nat.eqb u t then x else f u.

Inductive label := Begin (t : nat) | Manage (t x : nat) | End_ (t : nat) | Drain (t : nat).
Inductive event := EBegin (t : nat) | EManage (t x : nat) | EEnd (t : nat) | EReclaim (x : nat) | EReturned.

Definition step (s : state) (l : label) : option (state * event) :=
  match l with
  | Begin t => (* lines 171-199 *)
      match pcs s t with
      | Outside => Some (mkState (managed s) ((refCount s + 1) mod 2 ^ 32) (tset (pcs s) t (Inside [])), EBegin t)
      | _ => None
      end
  | Manage t x => (* lines 242-255 *)
      match pcs s t with
      | Inside local => Some (mkState (managed s) (refCount s) (tset (pcs s) t (Inside (x :: local))), EManage t x)
      | _ => None
      end
  | End_ t => (* lines 213-240 *)
      match pcs s t with
      | Inside local =>
          let rc := (refCount s + (2 ^ 32 - 1)) mod 2 ^ 32 in
          match local with
          | _ :: _ => (* lines 222-229 *)
              if refCount s =? 1
              then Some (mkState [] rc (tset (pcs s) t (Draining (local ++ managed s))), EEnd t)
              else Some (mkState (local ++ managed s) rc (tset (pcs s) t Outside), EEnd t)
          | [] => (* lines 232-239 *)
              if refCount s =? 1
              then Some (mkState [] rc (tset (pcs s) t (Draining (managed s))), EEnd t)
              else Some (mkState (managed s) rc (tset (pcs s) t Outside), EEnd t)
          end
      | _ => None
      end
  | Drain t => (* lines 203-210, one iteration, or the end of the loop *)
      match pcs s t with
      | Draining (x :: l) => Some (mkState (managed s) (refCount s) (tset (pcs s) t (Draining l)), EReclaim x)
      | Draining [] => Some (mkState (managed s) (refCount s) (tset (pcs s) t Outside), EReturned)
      | _ => None
      end
  end.

Fixpoint run (s : state) (ls : list label) : option (state * list event) :=
  match ls with
  | [] => Some (s, [])
  | l :: t => let? (s', e) := step s l in
              let? (s'', es) := run s' t in Some (s'', e :: es)
  end.
