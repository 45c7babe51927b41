From Verif Require Import Base IndexBufferModel IndexBufferSpec IndexBufferProofs.

(** For every index count, number of threads and interleaving in which threads stage or discard
    only indexes they obtained: writers get indexes nobody owns, readers get the staged index
    (or nothing when none is staged), and displaced indexes go back to the pool. *)
Theorem c37_single_owner :
  forall W n, 0 < W -> 0 < n ->
  forall ls s es,
    run W (create W n) ls = Some (s, es) ->
    all client_ok nobody es ->
    all (buffer_ok n) nobody es.
Proof.
  exact (fun W n HW Hn ls s es R C =>
    proj1 (run_inv W HW n ls (create W n) nobody s es (create_inv W HW n Hn) R C)).
Qed.
Print Assumptions c37_single_owner.

(** At most one index is staged, and outside of Stage calls no index is in transit: each is in
    the pool, held by one thread, or staged. An index in transit belongs to exactly one Stage
    call, whose next action puts it back in the pool. *)
Theorem c37_owners_exclusive :
  forall W n, 0 < W -> 0 < n ->
  forall ls s es,
    run W (create W n) ls = Some (s, es) ->
    all client_ok nobody es ->
    let o := owners_after nobody es in
    (forall i j, o i = Staged -> o j = Staged -> i = j) /\
    ((forall t, staging s t = None) -> forall i, o i = Free \/ o i = Held \/ o i = Staged) /\
    (forall i, o i = Returning ->
       exists t, staging s t = Some i /\ (forall u, staging s u = Some i -> u = t) /\
                 exists s', step W s (StageRecycle t) = Some (s', EReturned i)) /\
    (forall i, o i = Held -> exists s', step W s (Discard i) = Some (s', EDiscarded i)).
Proof.
  intros W n HW Hn ls s es R C o.
  destruct (run_inv W HW n ls (create W n) nobody s es (create_inv W HW n Hn) R C) as [_ I].
  fold o in I. pose proof I as (v & _ & _ & _ & _ & S1 & R1 & R2 & R3).
  split; [|split; [|split]].
  - intros i j Hi Hj. apply S1 in Hi. apply S1 in Hj. congruence.
  - intros Hn' i. destruct (o i) eqn:E; auto. destruct (R3 i E) as (t & Ht). rewrite Hn' in Ht. discriminate.
  - intros i Hi. destruct (R3 i Hi) as (t & Ht). exists t. split; [auto|]. split; [intros u Hu; eapply R2; eauto|].
    exact (recycle_enabled W HW n s o t i I Ht).
  - intros i Hi. exact (discard_enabled W HW n s o i I Hi).
Qed.
Print Assumptions c37_owners_exclusive.

(** Two writers and a reader on three indexes; the second stage displaces the first index,
    which the first writer then obtains again. *)
Definition hist : list label :=
  [Acquire 0; AcquireStep 0; AcquireStep 0; Acquire 1; AcquireStep 1; AcquireStep 1; AcquireStep 1;
   Stage 0 0; Stage 1 1; ReadAcquire 2; StageRecycle 1; ReadAcquire 2; Acquire 0; AcquireStep 0; AcquireStep 0;
   Discard 1].
Example c37_hist_runs :
  exists s, run 8 (create 8 3) hist =
    Some (s, [ETau; ETau; EAcquired 0 0; ETau; ETau; ETau; EAcquired 1 1; EStaged 0; EStaged 1; ERead (Some 1);
              EReturned 0; ERead None; ETau; ETau; EAcquired 0 0; EDiscarded 1]).
Proof. eexists. vm_compute. reflexivity. Qed.
Example c37_hist_valid : forall s es, run 8 (create 8 3) hist = Some (s, es) -> all client_ok nobody es.
Proof. intros s es. destruct c37_hist_runs as [s0 ->]. intros [= _ <-]. cbn. repeat split. Qed.
