From Verif Require Import Base SharedResourceModel SharedResourceSpec SharedResourceProofs.

(** The view of the users after a history. *)
Definition view_after (es : list event) : view := fold_left next es start.

Lemma after_fold es : forall v, after v es = fold_left next es v.
Proof. induction es as [|e es IH]; intros v; [reflexivity|apply IH]. Qed.

(** The limited variant (Tunlimited = FALSE), any number of slots up to 2^48, any number of threads,
    every interleaving: if fewer than 2^16 gets begin between publications, then every get shares a
    datum that was current during the get and is not destroyed, and each datum is destroyed at
    most once, never while current. *)
Theorem c41_get_shares_current_live_datum_partial :
  forall (Tmax : N), (0 < Tmax)%N -> (Tmax <= 2 ^ 48)%N ->
  forall ls s es, run Tmax false init ls = Some (s, es) ->
    all client_ok start es -> all resource_ok start es.
Proof.
  intros Tmax H0 H1 ls s es R C. exact (proj1 (run_good Tmax ls init start s es H1 (init_good Tmax H0) R C)).
Qed.
Print Assumptions c41_get_shares_current_live_datum_partial.

(** Nothing is lost: once every call has returned, each datum handed over and not destroyed is in
    one of the Tmax slots (and there is only one such slot). *)
Theorem c41_undestroyed_data_are_in_slots_partial :
  forall (Tmax : N), (0 < Tmax)%N -> (Tmax <= 2 ^ 48)%N ->
  forall ls s es, run Tmax false init ls = Some (s, es) ->
    all client_ok start es -> (forall t, pcs s t = Idle) ->
    forall d, lives (view_after es) d = Live <-> exists! i, (i < Tmax)%N /\ data s i = Some d.
Proof.
  intros Tmax H0 H1 ls s es R C Hid d.
  destruct (proj2 (run_good Tmax ls init start s es H1 (init_good Tmax H0) R C)) as (L & own & ci & c & loc & H).
  unfold view_after. rewrite after_fold in H. destruct H. rewrite i_lives. split.
  - destruct (loc d) eqn:E; try discriminate; intros _.
    + apply i_lpend in E. rewrite Hid in E. discriminate.
    + exists i. split; [now apply i_lslot|]. intros j Hj. apply i_lslot in Hj. congruence.
    + apply i_lstale in E. rewrite Hid in E. discriminate.
  - intros (i & Hi & _). apply i_lslot in Hi. now rewrite Hi.
Qed.
Print Assumptions c41_undestroyed_data_are_in_slots_partial.

(** No call ever goes outside the slots. *)
Theorem c41_no_access_outside_slots_partial :
  forall (Tmax : N), (0 < Tmax)%N -> (Tmax <= 2 ^ 48)%N ->
  forall ls s es, run Tmax false init ls = Some (s, es) -> all client_ok start es ->
  forall t, pcs s t <> Idle -> exists s' e, step Tmax false s (Step t) = Some (s', e).
Proof.
  intros Tmax H0 H1 ls s es R C t Ht.
  pose proof (never_stuck Tmax ls s es H0 H1 R C t Ht) as H.
  destruct (step Tmax false s (Step t)) as [[s' e]|]; [eauto|congruence].
Qed.
Print Assumptions c41_no_access_outside_slots_partial.

(** Missing: the default variant, Tunlimited = TRUE. There a get that is delayed after taking its
    share can decrement the packed counter of a later publication of the same slot... *)
Definition aba : list label :=
  [GetStart 0; Step 0; Step 0;
   SetStart 1 10; Step 1; Step 1; Step 1; Step 1; Step 1; Step 1; Step 1;
   SetStart 1 11; Step 1; Step 1; Step 1; Step 1; Step 1; Step 1; Step 1;
   Step 0; Step 0; Step 0; GetStart 2].

(** ...after which the next get reads outside the slots. *)
Theorem c41_unlimited_get_out_of_bounds_refuted :
  exists ls s es, run 2 true init ls = Some (s, es) /\ all client_ok start es /\
    pcs s 2 <> Idle /\ step 2 true s (Step 2) = None.
Proof.
  exists aba. destruct (run 2 true init aba) as [[s es]|] eqn:E; [|vm_compute in E; discriminate].
  exists s, es. split; [reflexivity|].
  assert (H : exists s0 es0, run 2 true init aba = Some (s0, es0) /\ all client_ok start es0 /\ pcs s0 2 <> Idle /\ step 2 true s0 (Step 2) = None).
  { eexists _, _. split; [vm_compute; reflexivity|]. split; [cbn; repeat split; lia|]. split; [vm_compute; discriminate|vm_compute; reflexivity]. }
  destruct H as (s0 & es0 & H1 & H2). rewrite E in H1. injection H1 as <- <-. exact H2.
Qed.
Print Assumptions c41_unlimited_get_out_of_bounds_refuted.

(** Independently, a get that is between its two last writes can make a slot look free while
    another get is still about to share from it, which then receives a datum not yet published. *)
Definition early : list label :=
  [GetStart 0; Step 0; Step 0; Step 0; Step 0;       (* 0 has undone its count, not yet its refs *)
   GetStart 1;                                       (* 1 is about to share *)
   SetStart 2 10; Step 2; Step 2; Step 2; Step 2; Step 2; Step 2; Step 2;
   SetStart 2 11; Step 2; Step 2; Step 2; Step 2;    (* slot 0 is overwritten *)
   Step 1].
Theorem c41_unlimited_get_unpublished_refuted :
  exists ls s es, run 2 true init ls = Some (s, es) /\ all client_ok start es /\ ~ all resource_ok start es.
Proof.
  exists early. eexists _, _. split; [vm_compute; reflexivity|]. split; [cbn; repeat split; lia|].
  cbn. intuition congruence.
Qed.
Print Assumptions c41_unlimited_get_unpublished_refuted.

(** The hypotheses are met by a history with two setters and a reader in the middle. *)
Definition hist : list label :=
  [SetStart 0 10; Step 0; Step 0; Step 0; Step 0; GetStart 1; Step 0; GetStart 2; Step 0; Step 0;
   SetStart 3 11; Step 3; Step 1; Step 1; Step 3; Step 3; Step 3; Step 3; Step 3; Step 2; Step 3; Step 2;
   SetStart 0 12; Step 0; Step 0; Step 0; Step 0; Step 0; Step 0; Step 0].
Example c41_hist_runs : exists s, run 3 false init hist =
  Some (s, [ESetStart 0 10; ETau; ETau; ETau; ETau; EGetStart 1; EPublished 10; EGetStart 2; ETau; EDestroyed None;
            ESetStart 3 11; ETau; EShared 1 None; EGot 1 None; ETau; ETau; ETau; EPublished 11; ETau; EShared 2 (Some 10);
            EDestroyed None; EGot 2 (Some 10); ESetStart 0 12; ETau; ETau; ETau; ETau; EPublished 12; ETau; EDestroyed None]).
Proof. eexists. vm_compute. reflexivity. Qed.
Example c41_hist_ok : forall s es, run 3 false init hist = Some (s, es) -> all client_ok start es.
Proof. intros s es. destruct c41_hist_runs as [s0 ->]. intros [= _ <-]. cbn. repeat split; lia. Qed.
