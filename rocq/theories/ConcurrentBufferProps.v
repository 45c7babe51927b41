From Verif Require Import Base ConcurrentBufferModel ConcurrentBufferSpec ConcurrentBufferProofs.

(** A datum written [k] times is accounted for [k] times: in the buffer, about to be destroyed
    by a write in progress, handed back, or destroyed. In particular a datum written once is in
    exactly one of these places, so it is never handed back twice, never destroyed twice, and
    never both. The buffer has a destructor; [n] bounds the thread numbers used. *)
Theorem c36_each_datum_accounted_once :
  forall ls s es,
    run (create true) ls = Some (s, es) ->
    forall n, Forall (fun l => thread l < n) ls -> forall d,
    total (put1 d) es =
      is d (data s) + doomed s d n + total (back1 d) es + total (destroyed1 d) es.
Proof.
  intros ls s es R n F d.
  pose proof (run_balance ls (create true) s es n d R F) as B.
  pose proof (run_keeps ls (create true) s es R eq_refl d) as K.
  rewrite doomed_create in B. cbn [data create is] in B. lia.
Qed.
Print Assumptions c36_each_datum_accounted_once.

(** Once the buffer is destroyed and no write is in progress, everything written was handed
    back or destroyed, each time exactly once. *)
Theorem c36_nothing_leaks :
  forall ls s es,
    run (create true) ls = Some (s, es) ->
    alive s = false -> (forall t, pcs s t = TIdle) ->
    forall d, total (put1 d) es = total (back1 d) es + total (destroyed1 d) es.
Proof.
  intros ls s es R Ha Hi d. destruct (threads_bound ls) as [n F].
  pose proof (c36_each_datum_accounted_once ls s es R n F d) as B.
  rewrite (doomed_idle s d n Hi), (dead_data ls (create true) s es R) in B by (auto; discriminate).
  cbn in B. lia.
Qed.
Print Assumptions c36_nothing_leaks.

(** Without a destructor the same holds with "replaced and given up" in place of destroyed. *)
Theorem c36_without_destructor_accounted :
  forall ls s es,
    run (create false) ls = Some (s, es) ->
    forall n, Forall (fun l => thread l < n) ls -> forall d,
    total (put1 d) es =
      is d (data s) + doomed s d n + total (back1 d) es + total (destroyed1 d) es + total (dropped1 d) es.
Proof.
  intros ls s es R n F d.
  pose proof (run_balance ls (create false) s es n d R F) as B.
  rewrite doomed_create in B. cbn [data create is] in B. lia.
Qed.
Print Assumptions c36_without_destructor_accounted.

(** Every read and swap returns the datum most recently put in and not yet taken. *)
Theorem c36_read_returns_latest :
  forall b ls s es,
    run (create b) ls = Some (s, es) ->
    (forall pre r post, es = pre ++ ERead r :: post -> r = holds pre) /\
    (forall pre d r post, es = pre ++ ESwap d r :: post -> r = holds pre).
Proof.
  intros b ls s es R. destruct (run_ok ls (create b) s es R) as [O _]. cbn [data create] in O.
  split; intros; subst es; apply (all_ok_split _ _ _ _ O).
Qed.
Print Assumptions c36_read_returns_latest.

Definition hist : list label :=
  [Write 0 (Some 7); Write 1 (Some 8); Read 2; Finish 1; Write 0 (Some 9); WriteSwap 1 (Some 7); Read 2; Read 2;
   Write 2 (Some 5); Destroy].
Example c36_hist_runs :
  exists s, run (create true) hist =
    Some (s, [EWrite (Some 7); EWrite (Some 8); ERead (Some 8); EDestroyed (Some 7); EWrite (Some 9);
              ESwap (Some 7) (Some 9); ERead (Some 7); ERead None; EWrite (Some 5); EDestroyed (Some 5); EGone])
    /\ alive s = false /\ forall t, pcs s t = TIdle.
Proof.
  eexists. split; [vm_compute; reflexivity|]. split; [reflexivity|].
  intros [|[|t]]; reflexivity.
Qed.
