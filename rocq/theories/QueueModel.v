(** Model of CommonC/Queue.c on top of the linked list model. *)
From Verif Require Import Base LinkedListModel.

(** Queue.c 31-35 *)
Record queue := mkQueue { qhead : option addr; qtail : option addr; qcount : nat }.

(** Queue.c 42-56 *)
Definition qcreate : queue := mkQueue None None 0.

(** Queue.c 65-74: CCQueuePush. [fuel] bounds the loops of the linked list functions. *)
Definition qpush (fuel : nat) (h : heap) (q : queue) (n : addr) : option (heap * queue) :=
  let? (h, hd) :=
    match qhead q with
    | Some a => insert_before fuel h a n
    | None => Some (h, n)
    end in
  Some (h, mkQueue (Some hd) (match qtail q with None => Some hd | t => t end) (qcount q + 1)).

(** Queue.c 76-92: CCQueuePop *)
Definition qpop (h : heap) (q : queue) : option (heap * queue * option addr) :=
  match qtail q with
  | None => Some (h, q, None)
  | Some t =>
      let? p := get_prev h t in
      let hd := match p with None => None | Some _ => qhead q end in
      let? h := remove_node h t in
      Some (h, mkQueue hd p (qcount q - 1), Some t)
  end.

(** Queue.c 94-99 and 101-106 *)
Definition qpeek (q : queue) : option addr := qtail q.

Inductive qop := Push (n : addr) | Pop | Peek | Count.
Inductive qret := RNode (n : option addr) | RCount (n : nat) | RNone.

Definition qstep (fuel : nat) (s : heap * queue) (o : qop) : option (heap * queue * qret) :=
  let '(h, q) := s in
  match o with
  | Push n => let? (h', q') := qpush fuel h q n in Some (h', q', RNone)
  | Pop => let? (h', q', r) := qpop h q in Some (h', q', RNode r)
  | Peek => Some (h, q, RNode (qpeek q))
  | Count => Some (h, q, RCount (qcount q))
  end.

Fixpoint qrun (fuel : nat) (s : heap * queue) (ops : list qop) : option (heap * queue * list qret) :=
  match ops with
  | [] => Some (s, [])
  | o :: t => let? (s', r) := qstep fuel s o in
              let? (s'', rs) := qrun fuel s' t in Some (s'', r :: rs)
  end.

(** Walking the queue's list from the tail, as its enumerator does (Queue.c 108-152: the
    enumeration starts at [tail] and Next follows [prev]). *)
Fixpoint qwalk (fuel : nat) (h : heap) (a : option addr) : option (list addr) :=
  match a with
  | None => Some []
  | Some n => match fuel with
              | 0 => None
              | S f => let? p := get_prev h n in let? l := qwalk f h p in Some (n :: l)
              end
  end.
