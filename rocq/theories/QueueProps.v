(** C03: CCQueue is first-in first-out. *)
From Verif Require Import Base LinkedListModel QueueModel QueueSpec QueueProofs.

(** Every history in which a node is pushed only while it is outside the queue runs without
    undefined behaviour and returns exactly what the FIFO specification returns; walking the
    queue the way its enumerator does yields the remaining nodes, oldest first. *)
Theorem c03_queue_fifo : forall fuel ops,
  1 <= fuel -> fifo_valid [] ops ->
  exists h q, qrun fuel (fresh_nodes, qcreate) ops = Some ((h, q), snd (fifo_run [] ops)) /\
    forall wf, length (fst (fifo_run [] ops)) <= wf ->
      qwalk wf h (qtail q) = Some (fst (fifo_run [] ops)).
Proof. exact queue_fifo. Qed.
Print Assumptions c03_queue_fifo.

Definition c03_history : list qop :=
  [Push 4; Push 2; Push 9; Count; Pop; Peek; Push 4; Pop; Pop; Pop; Pop; Push 2; Count; Pop].

Example c03_history_valid : fifo_valid [] c03_history.
Proof. cbn. intuition congruence. Qed.

Example c03_history_result :
  option_map snd (qrun 1 (fresh_nodes, qcreate) c03_history) =
  Some [RNone; RNone; RNone; RCount 3; RNode (Some 4); RNode (Some 2); RNone; RNode (Some 2);
        RNode (Some 9); RNode (Some 4); RNode None; RNone; RCount 1; RNode (Some 2)].
Proof. reflexivity. Qed.
