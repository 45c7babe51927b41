From Verif Require Import Base ConcurrentQueueModel ConcurrentQueueSpec ConcurrentQueueProofs.

(** Any number of threads, any interleaving, any weak compare-exchange failures: every pop that returns a
    node returns the oldest one in the queue, so nodes leave in the order they entered and each leaves once. *)
Theorem c44_fifo :
  forall ls s es, run init ls = Some (s, es) -> all client_ok start es -> all fifo_ok start es.
Proof. intros ls s es R C. exact (proj1 (run_good ls init start _ _ s es init_inv R C)). Qed.
Print Assumptions c44_fifo.

(** Partial: a pop returns NULL only if during it the queue was empty or the push of the oldest node was
    still in progress. Missing from the property: that it was empty. That is refuted below. *)
Theorem c44_null_only_if_empty_or_push_in_progress_partial :
  forall ls s es, run init ls = Some (s, es) -> all client_ok start es -> all excused start es.
Proof. intros ls s es R C. exact (proj1 (proj2 (run_good ls init start _ _ s es init_inv R C))). Qed.
Print Assumptions c44_null_only_if_empty_or_push_in_progress_partial.

(** Whatever the interleaving, a thread inside a call can take its next step: no NULL node is followed. *)
Theorem c44_no_null_node_followed :
  forall ls s es t, run init ls = Some (s, es) -> all client_ok start es -> pcs s t <> Idle ->
  step s (Step t) <> None \/ step s (CasFails t) <> None.
Proof.
  intros ls s es t R C. destruct (run_good ls init start _ _ s es init_inv R C) as (_ & _ & ch & h & H).
  exact (inv_progress s _ ch h t H).
Qed.
Print Assumptions c44_no_null_node_followed.

(** Node 1 has entered the queue, its push is about to store the link to it; node 2 has been pushed and its
    push has returned, so the queue is not empty, and yet a pop by the same thread returns NULL. *)
Definition refuting : list label :=
  [Push 0 1; Step 0; Step 0; Step 0; Push 1 2; Step 1; Step 1; Step 1; Step 1;
   Pop 1; Step 1; Step 1; Step 1; Step 1].
Theorem c44_null_means_empty_refuted :
  exists ls s es, run init ls = Some (s, es) /\ all client_ok start es /\ ~ all null_means_empty start es.
Proof.
  destruct (run init refuting) as [[s es]|] eqn:E; [|vm_compute in E; discriminate].
  exists refuting, s, es. split; [exact E|].
  assert (es = [EPush 0 1; ETau; ETau; EPushed 0 1; EPush 1 2; ETau; ETau; EPushed 1 2; EPushReturns 1 2;
                EPop 1; ETau; ETau; ETau; EEmpty 1]) as ->.
  { apply (f_equal (option_map snd)) in E. vm_compute in E. congruence. }
  split.
  - cbn. intuition lia.
  - cbn. intuition discriminate.
Qed.
Print Assumptions c44_null_means_empty_refuted.

(** Three threads; a weak failure, a pop that loses the race and retries, an empty pop. *)
Definition hist : list label :=
  [Pop 2; Step 2; Step 2; Step 2; Step 2;
   Push 0 5; Push 1 7; Step 0; Step 1; Step 0; Step 1; CasFails 1; Step 0; Step 0; Step 1; Step 1; Step 1; Step 1;
   Pop 0; Pop 2; Step 0; Step 2; Step 0; Step 2; Step 0; Step 2; Step 0; Step 2; Step 0; CasFails 2;
   Step 2; Step 2; Step 2; Step 2; Step 2].
Definition hist_events : list event :=
  [EPop 2; ETau; ETau; ETau; EEmpty 2; EPush 0 5; EPush 1 7; ETau; ETau; ETau; ETau; ETau; EPushed 0 5; EPushReturns 0 5;
   ETau; ETau; EPushed 1 7; EPushReturns 1 7; EPop 0; EPop 2; ETau; ETau; ETau; ETau; ETau; ETau; ETau; ETau;
   EPopped 0 (Some 5); ETau; ETau; ETau; ETau; ETau; EPopped 2 (Some 7)].
Example c44_hist_runs : exists s, run init hist = Some (s, hist_events).
Proof. eexists. vm_compute. reflexivity. Qed.
Example c44_hist_ok : all client_ok start hist_events.
Proof. cbn. intuition lia. Qed.
