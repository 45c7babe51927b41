From Verif Require Import Base TaskQueueModel TaskQueueSpec TaskQueueProofs.

(** Serial and concurrent queues, any number of threads, any interleaving: tasks come out in the order they
    went in, each once. *)
Theorem c47_fifo_each_once :
  forall serial ls s es, run serial init ls = Some (s, es) -> all client_ok start es -> all fifo_ok start es.
Proof. intros r ls s es R C. exact (proj1 (run_g r ls init start [] [] s es init_ginv R C)). Qed.
Print Assumptions c47_fifo_each_once.

(** A serial queue hands out a task only once every task handed out before has finished. *)
Theorem c47_serial_one_at_a_time :
  forall ls s es, run true init ls = Some (s, es) -> all client_ok start es -> all serial_ok start es.
Proof. intros ls s es R C. exact (run_s ls init start [] [] s es init_ginv init_sinv R C). Qed.
Print Assumptions c47_serial_one_at_a_time.

(** The emptiness test is exact whenever no push or pop is half done. *)
Theorem c47_empty_test_exact_when_quiet :
  forall serial ls s es, run serial init ls = Some (s, es) -> all client_ok start es -> all empty_ok start es.
Proof. intros r ls s es R C. exact (proj2 (run_g r ls init start [] [] s es init_ginv R C)). Qed.
Print Assumptions c47_empty_test_exact_when_quiet.

(** The rule that a task is run only after a pop has returned it is needed: a task run before it is pushed
    counts as finished while its new run is in progress, or yet to start, and the next task is handed out. *)
Definition early : list label :=
  [RunStart 5; RunEnd 5; Push 0 5; Step 0; Push 0 6; Step 0; Pop 1; Step 1; Step 1; Step 1; Step 1; Step 1;
   Pop 2; Step 2; Step 2; RunStart 5].
Theorem c47_task_run_before_push_refuted :
  exists ls s es, run true init ls = Some (s, es) /\
    exists pre post, es = pre ++ [ETake 2 6; ERunStart 5] ++ post /\ In (EPopReturns 1 5) pre.
Proof.
  destruct (run true init early) as [[s es]|] eqn:E; [|vm_compute in E; discriminate].
  exists early, s, es. split; [exact E|].
  exists [ERunStart 5; ERunEnd 5; EPush 0 5; EPushReturns 0; EPush 0 6; EPushReturns 0; ETau; ETau; ETake 1 5; ETau; ETau;
          EPopReturns 1 5; ETau; ETau], [].
  apply (f_equal (option_map snd)) in E. vm_compute in E. injection E as <-. split; [reflexivity|cbn; tauto].
Qed.
Print Assumptions c47_task_run_before_push_refuted.

(** Two tasks; a pop refused while another pop holds the lock, one refused while the first task runs. *)
Definition hist : list label :=
  [IsEmpty 9; Push 0 5; IsEmpty 9; Step 0; Push 1 6; Step 1; IsEmpty 9; Pop 2; Pop 3; Step 2; Step 2; Step 2; Step 2; Step 2;
   RunStart 5; Pop 3; Step 3; Step 3; RunEnd 5; Pop 3; Step 3; Step 3; Step 3; Step 3; Step 3; IsEmpty 9; Pop 2; Step 2; Step 2].
Definition hist_events : list event :=
  [EIsEmpty 9 true; EPush 0 5; EIsEmpty 9 true; EPushReturns 0; EPush 1 6; EPushReturns 1; EIsEmpty 9 false; ETau; ENull 3; ETau;
   ETake 2 5; ETau; ETau; EPopReturns 2 5; ERunStart 5; ETau; ETau; ENull 3; ERunEnd 5; ETau; ETau; ETake 3 6; ETau; ETau;
   EPopReturns 3 6; EIsEmpty 9 true; ETau; ETau; ENull 2].
Example c47_hist_runs : exists s, run true init hist = Some (s, hist_events).
Proof. eexists. vm_compute. reflexivity. Qed.
Example c47_hist_ok : all client_ok start hist_events.
Proof. cbn. intuition lia. Qed.
