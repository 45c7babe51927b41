From Verif Require Import Base TaskModel TaskSpec TaskProofs.

(** Any number of threads, any interleaving of runs, tests, waits and result reads, with fewer than
    2^32 runs in progress at once. *)
Theorem c46_finished_exactly_when_run_and_idle :
  forall ls s es, run init ls = Some (s, es) -> all client_ok start es -> all task_ok start es.
Proof. exact (fun ls s es R C => run_inv ls init start s es init_inv R C). Qed.
Print Assumptions c46_finished_exactly_when_run_and_idle.

Definition hist : list label :=
  [IsFinished 9; RunStart 0; CallFunction 0; RunStart 1; IsFinished 9; FunctionReturns 0 5; RunEnd 0; IsFinished 9;
   CallFunction 1; FunctionReturns 1 6; IsFinished 9; RunEnd 1; Wait 8; GetResult 9; RunStart 2; IsFinished 8].
Example c46_hist_runs : exists s, run init hist =
  Some (s, [ETest 9 false; ERunStart 0; ECall 0; ERunStart 1; ETest 9 false; EReturn 0 5; ERunEnd 0; ETest 9 false;
            ECall 1; EReturn 1 6; ETest 9 false; ERunEnd 1; EWaited 8; EResult 9 6; ERunStart 2; ETest 8 false]).
Proof. eexists. vm_compute. reflexivity. Qed.
Example c46_hist_ok : forall s es, run init hist = Some (s, es) -> all client_ok start es.
Proof. intros s es. destruct c46_hist_runs as [s0 ->]. intros [= _ <-]. cbn. repeat split; lia. Qed.
