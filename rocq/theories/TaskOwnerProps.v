(** C90: who owns tasks, their inputs and their outputs. *)
From Verif Require Import Base TaskOwnerModel TaskOwnerSpec TaskOwnerProofs TaskOwnerStepProofs.

(** Every history of calls on tasks and queues the program has references to completes: no call touches memory that is
    gone, every call returns what it should, and the destructors of the input and the output of a task run in the call that
    takes its last reference away, wherever that reference was. Whatever is not referenced has been released, and so
    are the nodes of the queues once these are destroyed. *)
Theorem c90_owned_partial : forall ops w, moves start ops = Some w ->
  exists s outs, run init ops = Some (s, outs) /\ follows start ops outs /\
    (forall t, references w t = 0 -> tasks s t = None /\ forall d, datas s t d = None) /\
    (Forall (fun q => q = None) (lines w) -> forall n, nodes s n = None).
Proof.
  intros ops w E. destruct (run_ok ops init start w good_init E) as (s & outs & R & F & G). exists s, outs. split; [exact R|]. split; [exact F|]. exact (good_gone s w G).
Qed.
Print Assumptions c90_owned_partial.

(** Over the whole history, the destructor of an input or an output has run once when nothing refers to its task any
    more, and not at all before. *)
Theorem c90_once_partial : forall ops w, moves start ops = Some w ->
  exists s outs, run init ops = Some (s, outs) /\
    forall t d, times (t, d) (all_events outs) = if (has w t d && (references w t =? 0))%bool then 1 else 0.
Proof.
  intros ops w E. destruct (run_ok ops init start w good_init E) as (s & outs & R & F & G). exists s, outs. split; [exact R|]. intros t d.
  rewrite (once ops init start w outs good_init E F t d). cbn [start made length]. change (t <? 0) with false. cbn [andb negb]. now rewrite andb_true_r.
Qed.
Print Assumptions c90_once_partial.

(** When there is no memory for the input or the output, a task that has already been released is returned: the
    program takes it for one it made, and destroying it touches memory that is gone. The destructor of the input may
    already have run. *)
Theorem c90_no_memory_refuted : exists s s',
  step init (Create true false true false true) = Some (s, (RTask (Some 0), [])) /\ step s (Destroy 0) = None /\ step s (Run 0) = None /\
  step init (Create true true true true false) = Some (s', (RTask (Some 0), [(0, Input)])) /\ step s' (Destroy 0) = None.
Proof. eexists _, _. do 4 (split; [reflexivity|]). reflexivity. Qed.
Print Assumptions c90_no_memory_refuted.

(** When there is no memory for the node, pushing a task fails an assertion. *)
Theorem c90_push_refuted : exists s outs, run init [Create false true true true true; CreateQueue true] = Some (s, outs) /\ step s (Push 0 0 false) = None.
Proof. eexists _, _. split; reflexivity. Qed.
Print Assumptions c90_push_refuted.

(** Non-vacuity: two tasks in a serial queue, one of them pushed twice; the first is run and handed out, and goes when the
    queue has handed out the next one and the program has let go of it. The rest goes with the queue. *)
Definition history : list op :=
  [Create true true true true true; Create false true true true true; CreateQueue true; Push 0 0 true; Retain 1; Push 0 1 true; Push 0 1 true;
   Pop 0 []; Pop 0 []; Run 0; Destroy 0; Pop 0 [0; 5]; Destroy 1; DestroyQueue 0 (fun k => [3; k])].

Example history_legal : match moves start history with Some w => map (references w) [0; 1] = [0; 0] | None => False end.
Proof. vm_compute. reflexivity. Qed.

Example history_events : match run init history with
  | Some (s, outs) =>
    map snd outs = [[]; []; []; []; []; []; []; []; []; []; []; [(0, Input); (0, Output)]; []; [(1, Output)]] /\
    map fst outs = [RTask (Some 0); RTask (Some 1); RQueue 0; RUnit; RUnit; RUnit; RUnit; RTask (Some 0); RTask None; RUnit; RUnit; RTask (Some 1); RUnit; RUnit]
  | None => False end.
Proof. vm_compute. split; reflexivity. Qed.
