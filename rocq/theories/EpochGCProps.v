From Verif Require Import Base EpochGCModel EpochGCSpec EpochGCProofs.

(** Any number of threads, any interleaving and history length: an item is reclaimed at most once,
    only after being handed over, and not before every thread that was in a section at the
    hand-over has left it. *)
Theorem c43_reclaim_safe_and_once :
  forall ls s es, run init ls = Some (s, es) -> all client_ok start es -> all collector_ok start es.
Proof. exact (fun ls s es R C => proj1 (run_good ls init start s es init_good R C)). Qed.
Print Assumptions c43_reclaim_safe_and_once.

(** Nothing is lost: once every call has returned, each item handed over and not reclaimed is in
    exactly one of the three lists, once, where a later section or the destructor finds it. *)
Theorem c43_unreclaimed_items_are_managed :
  forall ls s es, run init ls = Some (s, es) -> all client_ok start es ->
    (forall t, pcs s t = Outside) ->
    forall x, fates (fold_left next es start) x = Handed <->
              exists! i, In x (managed s i) /\ NoDup (managed s i).
Proof.
  intros ls s es R C Hout x.
  destruct (proj2 (run_good ls init start s es init_good R C)) as (L & je & he & loc & []).
  rewrite i_fate. split.
  - destruct (loc x) eqn:E; try discriminate; intros _.
    + apply i_lheld in E. rewrite Hout in E. contradiction.
    + exists i. split; [split; [now apply i_lslot|auto]|]. intros j [Hj _]. apply i_lslot in Hj. congruence.
  - intros (i & [Hi _] & _). apply i_lslot in Hi. now rewrite Hi.
Qed.
Print Assumptions c43_unreclaimed_items_are_managed.

(** The items in the lists are in the three slots only. *)
Theorem c43_three_slots :
  forall ls s es, run init ls = Some (s, es) -> all client_ok start es ->
    forall i, (3 <= i)%N -> managed s i = [].
Proof.
  intros ls s es R _. apply (proj1 (run_slots ls init s es (conj (fun _ _ => eq_refl) (fun _ => I)) R)).
Qed.
Print Assumptions c43_three_slots.

(** Thread 0 hands over item 7 while thread 1 is inside; sections come and go until 7 is reclaimed. *)
Definition hist : list label :=
  [Begin 0; Step 0; Step 0; Begin 1; Step 1; Step 1; Manage 0 7;
   End_ 0; Step 0; Step 0; Step 0; Step 0; Step 0; Step 0;
   Begin 2; Step 2; Step 2; End_ 2; Step 2; Step 2; Step 2;
   End_ 1; Step 1; Step 1; Step 1; Step 1; Step 1; Step 1;
   Begin 2; Step 2; Step 2; Manage 2 8; End_ 2; Step 2; Step 2; Step 2; Step 2; Step 2; Step 2; Step 2].
Example c43_hist_runs : exists s es, run init hist = Some (s, es) /\
  filter (fun e => match e with ETau => false | _ => true end) es =
  [EBegin 0; EBegin 1; EManage 0 7; EEnd 0; EBegin 2; EEnd 2; EEnd 1; EBegin 2; EManage 2 8; EEnd 2; EReclaim 7].
Proof. eexists _, _. split; [vm_compute; reflexivity|vm_compute; reflexivity]. Qed.
Example c43_hist_ok : forall s es, run init hist = Some (s, es) -> all client_ok start es.
Proof.
  assert (H : exists s es, run init hist = Some (s, es) /\ all client_ok start es).
  { eexists _, _. split; [vm_compute; reflexivity|cbn; repeat split]. }
  destruct H as (s0 & es0 & -> & H). intros s es [= _ <-]. exact H.
Qed.
