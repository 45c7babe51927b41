From Verif Require Import Base LazyGCModel LazyGCSpec LazyGCProofs.

(** Any number of threads, any interleaving and history length: an item is reclaimed at most once,
    only after being handed over, and not before every thread that was in a section at the
    hand-over has left it. *)
Theorem c42_reclaim_safe_and_once :
  forall ls s es, run init ls = Some (s, es) -> all client_ok start es -> all collector_ok start es.
Proof. exact (fun ls s es R C => proj1 (run_inv ls init start _ s es init_inv R C)). Qed.
Print Assumptions c42_reclaim_safe_and_once.

Lemma handed_stays es : forall v x, fates v x <> NotHanded -> fates (fold_left next es v) x <> NotHanded.
Proof.
  induction es as [|e es IH]; intros v x H; [exact H|]. apply IH. destruct e; cbn [next fates]; auto.
  - thr x x0; [discriminate|exact H].
  - thr x x0; [discriminate|exact H].
Qed.

(** When every thread is outside (and done draining), every item handed over has been reclaimed. *)
Theorem c42_quiescent_all_reclaimed :
  forall ls s es, run init ls = Some (s, es) -> all client_ok start es ->
    (forall t, pcs s t = Outside) ->
    forall t x, In (EManage t x) es -> In (EReclaim x) es.
Proof.
  intros ls s es R C Hout t x Hin.
  destruct (run_inv ls init start _ s es init_inv R C) as [_ [loc []]].
  assert (Hne : fates (fold_left next es start) x <> NotHanded).
  { clear - Hin. revert Hin. generalize start. induction es as [|e es IH]; [intros ? []|]. intros v [->|H]; [|now apply IH].
    cbn [fold_left]. apply handed_stays. cbn [next fates]. rewrite tset_eq. discriminate. }
  assert (Hre : fates (fold_left next es start) x = Reclaimed -> In (EReclaim x) es \/ fates start x = Reclaimed).
  { clear. generalize start. induction es as [|e es IH]; intros v; [auto|]. cbn [fold_left]. intros H.
    destruct (IH _ H) as [H1|H1]; [left; now right|]. destruct e; cbn [next fates] in H1; auto.
    - thr x x0; [discriminate|auto].
    - thr x x0; [left; now left|auto]. }
  rewrite i_fate in Hne, Hre. destruct (loc x) eqn:E; cbn [fateof] in *; try congruence.
  - apply i_local in E. rewrite Hout in E. contradiction.
  - apply i_shared in E. rewrite i_quiet in E; [contradiction|].
    destruct (inside (fold_left next es start)) as [|u k] eqn:Ei; [reflexivity|].
    destruct (proj1 (i_in u) (or_introl eq_refl)) as [k' Hk]. rewrite Hout in Hk. discriminate.
  - apply i_drain in E. rewrite Hout in E. contradiction.
  - destruct (Hre eq_refl) as [H|H]; [exact H|discriminate].
Qed.
Print Assumptions c42_quiescent_all_reclaimed.

Definition hist : list label :=
  [Begin 0; Manage 0 7; Begin 1; Manage 0 8; End_ 0; Begin 2; Manage 1 9; End_ 1; End_ 2; Begin 0; Drain 2; Manage 0 10; Drain 2; End_ 0; Drain 2; Drain 2;
   Drain 0; Drain 0].
Example c42_hist_runs : exists s, run init hist =
  Some (s, [EBegin 0; EManage 0 7; EBegin 1; EManage 0 8; EEnd 0; EBegin 2; EManage 1 9; EEnd 1; EEnd 2; EBegin 0; EReclaim 9; EManage 0 10; EReclaim 8; EEnd 0;
            EReclaim 7; EReturned; EReclaim 10; EReturned]).
Proof. eexists. vm_compute. reflexivity. Qed.
Example c42_hist_ok : forall s es, run init hist = Some (s, es) -> all client_ok start es.
Proof. intros s es. destruct c42_hist_runs as [s0 ->]. intros [= _ <-]. cbn. repeat split; lia. Qed.
