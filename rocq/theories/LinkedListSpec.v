(** Well-formed doubly linked lists, stated on positions only. *)
From Verif Require Import Base LinkedListModel.

(** The nodes of the list are exactly [l], from head to tail: each node's [next] is the
    following one and its [prev] the preceding one, with NULL at the two ends. *)
Definition is_list (h : heap) (l : list addr) : Prop :=
  NoDup l /\
  forall i a, nth_error l i = Some a ->
    h a = Some (mkNode (nth_error l (i + 1))
                       (match i with 0 => None | S j => nth_error l j end)).

Definition disjoint (l1 l2 : list addr) : Prop := forall a, In a l1 -> ~ In a l2.

(** Nothing outside [l] changed. *)
Definition unchanged_outside (l : list addr) (h h' : heap) : Prop :=
  forall a, ~ In a l -> h' a = h a.
