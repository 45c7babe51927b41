(** Model of CommonC/ConcurrentCircularBufferTemplate.h: one producer and one consumer
    interleaved at every atomic access and every item store or load, under sequential
    consistency. [tail] is only written by the producer and [head] only by the consumer, so a
    thread's load of its own index is merged with its next atomic step. [M] is the template
    parameter Tmax; index arithmetic is unbounded ([Tmax] is far below 2^64). *)
From Verif Require Import Base.

Section Model.
Context {A : Type}.
Variable M : nat.

Inductive ppc :=
| PIdle
| PWriting (todo : list A) (cursor : nat) (n : nat).  (* items left to store, local Tail, Count *)

Inductive cpc :=
| CIdle
| CEnum (start count : nat)    (* holding the enumerable *)
| CLast (index : nat).         (* holding a result of GetLastIndex *)

(** ConcurrentCircularBuffer.h: { items[Tmax], head, tail } *)
Record state := mkState { items : nat -> option A; head : nat; tail : nat; pp : ppc; cp : cpc }.

(** ConcurrentCircularBufferTemplate.h 41; the items are indeterminate. *)
Definition init : state := mkState (fun _ => None) 0 0 PIdle CIdle.

Definition iset (f : nat -> option A) (i : nat) (v : option A) : nat -> option A :=
  fun j => if j =? i then v else f j.

(** Lines 116 and 151: [Head <= Tail ? Tail - Head : Tmax - (Head - Tail)] *)
Definition used (h t : nat) : nat := if h <=? t then t - h else M - (h - t).

Inductive label :=
| PAdd (x : A)            (* AddItem up to its test *)
| PAddMany (xs : list A)  (* AddItems up to its test *)
| PStore                  (* one assignment to Buffer->items[Tail] *)
| PPublish                (* the store of tail; the call returns *)
| CGetEnumerable
| CLook (k : nat)         (* the consumer reads item k of the enumerable *)
| CRelease
| CGetLast                (* GetLastIndex *)
| CSetStart.              (* SetStartIndex with the index obtained from GetLastIndex *)

Inductive event :=
| EAddStart (xs : list A)   (* a call offering xs has looked for room *)
| EAdded (n : nat)          (* the call returned: n items added *)
| EEnum (count : nat)       (* the enumerable holds count items *)
| ELook (k : nat) (v : option A)
| ERelease
| ELastSeen
| ESkip
| ETau.

Definition step (s : state) (l : label) : option (state * event) :=
  match l with
  | PAdd x => (* lines 132-136; the FALSE return is the PPublish step with nothing to do *)
      match pp s with
      | PIdle =>
          if (tail s + 1) mod M =? head s
          then Some (mkState (items s) (head s) (tail s) (PWriting [] (tail s) 0) (cp s), EAddStart [x])
          else Some (mkState (items s) (head s) (tail s) (PWriting [x] (tail s) 1) (cp s), EAddStart [x])
      | _ => None
      end
  | PAddMany xs => (* lines 149-155 *)
      match pp s with
      | PIdle =>
          let n := Nat.min (M - used (head s) (tail s) - 1) (length xs) in
          Some (mkState (items s) (head s) (tail s) (PWriting (firstn n xs) (tail s) n) (cp s), EAddStart xs)
      | _ => None
      end
  | PStore => (* lines 138 and 158-161 *)
      match pp s with
      | PWriting (x :: xs) c n =>
          Some (mkState (iset (items s) c (Some x)) (head s) (tail s) (PWriting xs ((c + 1) mod M) n) (cp s), ETau)
      | _ => None
      end
  | PPublish => (* lines 140-145 and 164-167: nothing is stored when no item was added *)
      match pp s with
      | PWriting [] c n =>
          Some (mkState (items s) (head s) (if n =? 0 then tail s else c) PIdle (cp s), EAdded n)
      | _ => None
      end
  | CGetEnumerable => (* lines 114-118 *)
      match cp s with
      | CEnum _ _ => None
      | _ => let n := used (head s) (tail s) in
             Some (mkState (items s) (head s) (tail s) (pp s) (CEnum (head s) n), EEnum n)
      end
  | CLook k => (* CircularEnumerable.c: the item at index start + k, address index % max *)
      match cp s with
      | CEnum st n => if k <? n then Some (s, ELook k (items s ((st + k) mod M))) else None
      | _ => None
      end
  | CRelease => (* lines 121-128 *)
      match cp s with
      | CEnum st n => Some (mkState (items s) ((st + n) mod M) (tail s) (pp s) CIdle, ERelease)
      | _ => None
      end
  | CGetLast => (* lines 102-105 *)
      match cp s with
      | CIdle => Some (mkState (items s) (head s) (tail s) (pp s) (CLast (tail s)), ELastSeen)
      | _ => None
      end
  | CSetStart => (* lines 107-110 *)
      match cp s with
      | CLast i => Some (mkState (items s) (i mod M) (tail s) (pp s) CIdle, ESkip)
      | _ => None
      end
  end.

Fixpoint run (s : state) (ls : list label) : option (state * list event) :=
  match ls with
  | [] => Some (s, [])
  | l :: t => let? (s', e) := step s l in
              let? (s'', es) := run s' t in Some (s'', e :: es)
  end.

End Model.
Arguments state : clear implicits.
Arguments label : clear implicits.
Arguments event : clear implicits.
