(** First-in first-out specification. The state is the list of nodes, oldest first. *)
From Verif Require Import Base LinkedListModel QueueModel.

Definition fifo_step (l : list addr) (o : qop) : list addr * qret :=
  match o with
  | Push n => (l ++ [n], RNone)
  | Pop => match l with [] => ([], RNode None) | n :: t => (t, RNode (Some n)) end
  | Peek => (l, RNode (hd_error l))
  | Count => (l, RCount (length l))
  end.

Fixpoint fifo_run (l : list addr) (ops : list qop) : list addr * list qret :=
  match ops with
  | [] => (l, [])
  | o :: t => let (l', r) := fifo_step l o in
              let (l'', rs) := fifo_run l' t in (l'', r :: rs)
  end.

(** A node may be pushed only while it is not in the queue. *)
Fixpoint fifo_valid (l : list addr) (ops : list qop) : Prop :=
  match ops with
  | [] => True
  | o :: t => match o with Push n => ~ In n l | _ => True end /\ fifo_valid (fst (fifo_step l o)) t
  end.

(** Nodes available to the client: each one is alone (as CCLinkedListCreateNode leaves it). *)
Definition fresh_nodes : heap := fun _ => Some (mkNode None None).
