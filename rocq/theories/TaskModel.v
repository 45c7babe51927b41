(** Model of CommonC/Task.c 55-178: any number of threads running, testing and waiting on one task,
    interleaved between atomic accesses, under sequential consistency. A load followed by a
    compare-exchange retried until it succeeds is one atomic step: the successful exchange
    replaced the value it had loaded, and the failed ones changed nothing. *)
From Verif Require Import Base.
Local Open Scope N_scope.

(** What a thread is doing: outside, started (about to call the function), in the function, or
    returned from it. *)
Inductive pc := Out | Started | InFunction | Returned.

(** Lines 55-65; executions is a uint32_t. The output is whatever the function last wrote. *)
Record state := mkState { executions : N; completed : bool; output : nat; pcs : nat -> pc }.

(** Lines 82-83, 114 *)
Definition init : state := mkState 0 false 0%nat (fun _ => Out).

Definition tset {X} (f : nat -> X) (t : nat) (x : X) : nat -> X := fun u => if Nat.eqb u t then x else f u.

Inductive label :=
| RunStart (t : nat)              (* lines 134-137 *)
| CallFunction (t : nat)          (* line 139, entering *)
| FunctionReturns (t w : nat)     (* line 139, leaving; the function has written output w *)
| RunEnd (t : nat)                (* lines 141-143 *)
| IsFinished (t : nat)            (* lines 146-153 *)
| Wait (t : nat)                  (* lines 155-169, the iteration that ends it *)
| GetResult (t : nat).            (* lines 171-178, with the iteration that ends its wait *)

Inductive event :=
| ERunStart (t : nat) | ECall (t : nat) | EReturn (t w : nat) | ERunEnd (t : nat)
| ETest (t : nat) (b : bool) | EWaited (t : nat) | EResult (t w : nat).

Definition step (s : state) (l : label) : option (state * event) :=
  match l with
  | RunStart t =>
      match pcs s t with
      | Out => Some (mkState ((executions s + 1) mod 2 ^ 32) false (output s) (tset (pcs s) t Started), ERunStart t)
      | _ => None
      end
  | CallFunction t =>
      match pcs s t with
      | Started => Some (mkState (executions s) (completed s) (output s) (tset (pcs s) t InFunction), ECall t)
      | _ => None
      end
  | FunctionReturns t w =>
      match pcs s t with
      | InFunction => Some (mkState (executions s) (completed s) w (tset (pcs s) t Returned), EReturn t w)
      | _ => None
      end
  | RunEnd t =>
      match pcs s t with
      | Returned => Some (mkState ((executions s + (2 ^ 32 - 1)) mod 2 ^ 32) (executions s =? 1) (output s)
                            (tset (pcs s) t Out), ERunEnd t)
      | _ => None
      end
  | IsFinished t => Some (s, ETest t (completed s))
  | Wait t => if completed s then Some (s, EWaited t) else None
  | GetResult t => if completed s then Some (s, EResult t (output s)) else None
  end.

Fixpoint run (s : state) (ls : list label) : option (state * list event) :=
  match ls with
  | [] => Some (s, [])
  | l :: t => let? (s', e) := step s l in
              let? (s'', es) := run s' t in Some (s'', e :: es)
  end.
