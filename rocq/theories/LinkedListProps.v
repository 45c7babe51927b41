(** C02: linked list operations preserve link consistency and the node sequence.

    [x] is any node of a well-formed list L1 ++ x :: L2 and [y] any node of another
    well-formed list N1 ++ y :: N2. [fuel] is any bound on loop iterations that is at least
    the list length, so the theorems also say that the loops terminate. *)
From Verif Require Import Base LinkedListModel LinkedListSpec LinkedListProofs.

Theorem c02_insert_after : forall h L1 x L2 N1 y N2 fuel,
  is_list h (L1 ++ x :: L2) -> is_list h (N1 ++ y :: N2) ->
  disjoint (L1 ++ x :: L2) (N1 ++ y :: N2) -> length (N1 ++ y :: N2) <= fuel ->
  exists h', insert_after fuel h x y = Some (h', x) /\
    is_list h' (L1 ++ x :: (N1 ++ y :: N2) ++ L2) /\
    unchanged_outside ((L1 ++ x :: L2) ++ (N1 ++ y :: N2)) h h'.
Proof. exact insert_after_ok. Qed.
Print Assumptions c02_insert_after.

Theorem c02_insert_before : forall h L1 x L2 N1 y N2 fuel,
  is_list h (L1 ++ x :: L2) -> is_list h (N1 ++ y :: N2) ->
  disjoint (L1 ++ x :: L2) (N1 ++ y :: N2) -> length (N1 ++ y :: N2) <= fuel ->
  exists h', insert_before fuel h x y = Some (h', y) /\
    is_list h' (L1 ++ (N1 ++ y :: N2) ++ x :: L2) /\
    unchanged_outside ((L1 ++ x :: L2) ++ (N1 ++ y :: N2)) h h'.
Proof. exact insert_before_ok. Qed.
Print Assumptions c02_insert_before.

(** Insert: somewhere in the list, as documented; returns one of the two nodes. *)
Theorem c02_insert : forall h L1 x L2 N1 y N2 fuel,
  is_list h (L1 ++ x :: L2) -> is_list h (N1 ++ y :: N2) ->
  disjoint (L1 ++ x :: L2) (N1 ++ y :: N2) -> length (N1 ++ y :: N2) <= fuel ->
  exists h' r A B, insert fuel h x y = Some (h', r) /\ (r = x \/ r = y) /\
    A ++ B = L1 ++ x :: L2 /\
    is_list h' (A ++ (N1 ++ y :: N2) ++ B) /\
    unchanged_outside ((L1 ++ x :: L2) ++ (N1 ++ y :: N2)) h h'.
Proof. exact insert_ok. Qed.
Print Assumptions c02_insert.

Theorem c02_append : forall h L1 x L2 N1 y N2 depth fuel,
  is_list h (L1 ++ x :: L2) -> is_list h (N1 ++ y :: N2) ->
  disjoint (L1 ++ x :: L2) (N1 ++ y :: N2) ->
  length (L1 ++ x :: L2) <= fuel -> length (N1 ++ y :: N2) <= fuel -> 2 <= depth ->
  exists h', append true depth fuel h x y = Some (h', y) /\
    is_list h' ((L1 ++ x :: L2) ++ (N1 ++ y :: N2)) /\
    unchanged_outside ((L1 ++ x :: L2) ++ (N1 ++ y :: N2)) h h'.
Proof. exact append_ok. Qed.
Print Assumptions c02_append.

Theorem c02_prepend : forall h L1 x L2 N1 y N2 depth fuel,
  is_list h (L1 ++ x :: L2) -> is_list h (N1 ++ y :: N2) ->
  disjoint (L1 ++ x :: L2) (N1 ++ y :: N2) ->
  length (L1 ++ x :: L2) <= fuel -> length (N1 ++ y :: N2) <= fuel -> 2 <= depth ->
  exists h', append false depth fuel h x y = Some (h', y) /\
    is_list h' ((N1 ++ y :: N2) ++ (L1 ++ x :: L2)) /\
    unchanged_outside ((L1 ++ x :: L2) ++ (N1 ++ y :: N2)) h h'.
Proof. exact prepend_ok. Qed.
Print Assumptions c02_prepend.

Theorem c02_remove_node : forall h L1 x L2,
  is_list h (L1 ++ x :: L2) ->
  exists h', remove_node h x = Some h' /\
    is_list h' (L1 ++ L2) /\ is_list h' [x] /\ unchanged_outside (L1 ++ x :: L2) h h'.
Proof. exact remove_node_ok. Qed.
Print Assumptions c02_remove_node.

(** Remove(Start, End): the range from s to its last node becomes a list of its own. *)
Theorem c02_remove_range : forall h L1 s S' L2,
  is_list h (L1 ++ (s :: S') ++ L2) ->
  exists h', remove_range h s (last S' s) = Some h' /\
    is_list h' (L1 ++ L2) /\ is_list h' (s :: S') /\
    unchanged_outside (L1 ++ (s :: S') ++ L2) h h'.
Proof. exact remove_range_last. Qed.
Print Assumptions c02_remove_range.

(** Destroy: frees x and every later node exactly once; the earlier nodes stay a list. *)
Theorem c02_destroy : forall h L1 x L2 fuel,
  is_list h (L1 ++ x :: L2) -> length (x :: L2) <= fuel ->
  exists h', destroy fuel h (Some x) = Some (h', x :: L2) /\
    is_list h' L1 /\ (forall a, In a (x :: L2) -> h' a = None) /\
    unchanged_outside (L1 ++ x :: L2) h h'.
Proof. exact (fun h L1 x L2 => destroy_ok L2 h L1 x). Qed.
Print Assumptions c02_destroy.

(** Non-vacuity: two concrete disjoint lists, 1 <-> 2 <-> 3 and 7 <-> 8 <-> 9. *)
Definition c02_heap : heap := fun a =>
  match a with
  | 1 => Some (mkNode (Some 2) None) | 2 => Some (mkNode (Some 3) (Some 1)) | 3 => Some (mkNode None (Some 2))
  | 7 => Some (mkNode (Some 8) None) | 8 => Some (mkNode (Some 9) (Some 7)) | 9 => Some (mkNode None (Some 8))
  | _ => None
  end.

Example c02_nonvacuous :
  is_list c02_heap ([1] ++ 2 :: [3]) /\ is_list c02_heap ([7] ++ 8 :: [9]) /\
  disjoint ([1] ++ 2 :: [3]) ([7] ++ 8 :: [9]).
Proof.
  repeat split.
  - repeat constructor; cbn; intuition congruence.
  - intros [|[|[|i]]] a H; cbn in H; try (injection H as <-; reflexivity). destruct i; discriminate.
  - repeat constructor; cbn; intuition congruence.
  - intros [|[|[|i]]] a H; cbn in H; try (injection H as <-; reflexivity). destruct i; discriminate.
  - intros a [<-|[<-|[<-|[]]]] H; cbn in H; intuition congruence.
Qed.
