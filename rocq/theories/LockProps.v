From Verif Require Import Base LockModel LockSpec LockProofs.
Local Open Scope N_scope.

(** ** C67: the lock of virtual files *)

(** Whatever the threads do, a thread that holds the lock for writing is the only one that holds it. *)
Theorem c67_exclusive : forall (A : Type) n (a : A) s, N.of_nat n < 2 ^ 31 -> reachable n a s -> exclusive (threads s).
Proof. intros A n a s H R. apply (invariant_exclusive A n), (invariant_reachable A n a s H R). Qed.
Print Assumptions c67_exclusive.

(** Neither assertion (142, 154) fails. *)
Theorem c67_no_assertion_fails : forall (A : Type) n (a : A) s, N.of_nat n < 2 ^ 31 -> reachable n a s -> assertion_failed s = false.
Proof. intros A n a s H R. apply (inv_ok A n), (invariant_reachable A n a s H R). Qed.
Print Assumptions c67_no_assertion_fails.

(** What the lock protects does not change as long as a thread holds it for reading, and while a thread holds it for writing
    nobody else changes it. *)
Theorem c67_stable : forall (A : Type) n (a : A) s i l s', N.of_nat n < 2 ^ 31 -> reachable n a s -> step s i l = Some s' ->
  (forall j, at_ (threads s) j Reading -> data s' = data s) /\
  (forall j, at_ (threads s) j Writing -> i <> j -> data s' = data s).
Proof.
  intros A n a s i l s' H R E. pose proof (c67_exclusive A n a s H R) as X. unfold step in E. unfold at_.
  destruct (nth_error (threads s) i) as [p|] eqn:Ei; [|discriminate]. destruct l, p; try discriminate; try (injection E as <-; auto; fail).
  - destruct ((lock s =? 0) && negb spurious); injection E as <-; auto.
  - injection E as <-. cbn [data]. split; intros j Ej.
    + pose proof (X i j Ei (or_intror Ej)) as ->. rewrite Ei in Ej. discriminate.
    + intros D. exfalso. apply D, (X i j Ei (or_introl Ej)).
Qed.
Print Assumptions c67_stable.

(** When nobody holds the lock, a thread that waits for reading gets it with its next step, and so does a thread that asks for
    reading; when in addition nobody waits for reading, a thread that waits for writing gets it, unless its exchange fails for no
    reason. *)
Theorem c67_progress : forall (A : Type) n (a : A) s, N.of_nat n < 2 ^ 31 -> reachable n a s -> unheld (threads s) ->
  (forall i, at_ (threads s) i WaitRead -> exists s', step s i ReadSpin = Some s' /\ at_ (threads s') i Reading) /\
  (forall i, at_ (threads s) i Outside -> exists s', step s i ReadLock = Some s' /\ at_ (threads s') i Reading) /\
  ((forall j, ~ at_ (threads s) j WaitRead) ->
   forall i, at_ (threads s) i WaitWrite -> exists s', step s i (WriteTry false) = Some s' /\ at_ (threads s') i Writing).
Proof.
  intros A n a s H R U. pose proof (invariant_reachable A n a s H R) as I. pose proof (flag_is A n s H I) as F.
  assert (W0 : countb is_writing (threads s) = O).
  { apply count_none. intros i p Ei. destruct p; try reflexivity. destruct (U i) as [_ Q]. elim (Q Ei). }
  rewrite W0 in F. cbn [Nat.ltb Nat.leb] in F.
  assert (P : forall i (p q : pc), nth_error (threads s) i = Some p -> nth_error (upd (threads s) i q) i = Some q).
  { intros i p q Ei. apply nth_error_upd_eq. apply nth_error_Some. rewrite Ei. discriminate. }
  unfold at_. split; [|split].
  - intros i Ei. eexists. unfold step. rewrite Ei, F. split; [reflexivity|]. cbn [threads]. apply (P i WaitRead Reading Ei).
  - intros i Ei. eexists. unfold step. rewrite Ei, F. split; [reflexivity|]. cbn [threads]. apply (P i Outside Reading Ei).
  - intros NW i Ei. assert (R0 : countb is_reader (threads s) = O).
    { apply count_none. intros j p Ej. destruct p; try reflexivity; [elim (NW j Ej)|]. destruct (U j) as [Q _]. elim (Q Ej). }
    eexists. unfold step. rewrite Ei. destruct I as [_ K _ _ _]. rewrite K, R0, W0. cbn [N.of_nat N.mul N.add N.eqb negb andb]. split; [reflexivity|]. cbn [threads]. apply (P i WaitWrite Writing Ei).
Qed.
Print Assumptions c67_progress.

(** Two threads read, a third waits to write, gets the lock, a fourth waits to read and reads when the writer is done. *)
Fixpoint run {A} (s : state A) (l : list (nat * action A)) : option (state A) :=
  match l with [] => Some s | (i, x) :: r => let? s' := step s i x in run s' r end.

Lemma run_reachable {A} n (a : A) l : forall s s', reachable n a s -> run s l = Some s' -> reachable n a s'.
Proof.
  induction l as [|[i x] l IH]; intros s s' R E; cbn [run] in E; [injection E as <-; exact R|].
  destruct (step s i x) as [s1|] eqn:E1; [|discriminate]. apply (IH s1 s'); [|exact E]. apply (reach_step A n a s i x s1 R E1).
Qed.

Example lock_applies :
  let sched := [(0%nat, ReadLock); (1%nat, ReadLock); (2%nat, WriteLock); (2%nat, WriteTry false); (0%nat, ReadUnlock); (1%nat, ReadUnlock); (2%nat, WriteTry true); (2%nat, WriteTry false); (3%nat, ReadLock); (3%nat, ReadSpin); (2%nat, Change 7)] in
  exists s, run (initial 4 5) sched = Some s /\ reachable 4 5 s /\ threads s = [Outside; Outside; Writing; WaitRead] /\ lock s = 2 ^ 31 + 1 /\ data s = 7 /\
  exists s', run s [(2%nat, WriteUnlock); (3%nat, ReadSpin)] = Some s' /\ threads s' = [Outside; Outside; Outside; Reading] /\ lock s' = 1.
Proof.
  intros sched. eexists. split; [vm_compute; reflexivity|]. split; [apply (run_reachable 4 5 sched (initial 4 5)); [constructor|vm_compute; reflexivity]|]. split; [reflexivity|]. split; [reflexivity|]. split; [reflexivity|].
  eexists. split; [vm_compute; reflexivity|]. split; reflexivity.
Qed.

(** A thread that waits for reading keeps writers out, so the lock prefers readers; with nobody holding it, [c67_progress] has
    cases to apply to. *)
Example lock_progress_applies :
  exists s, run (initial 3 5) [(0%nat, ReadLock); (1%nat, WriteLock); (1%nat, WriteTry false); (0%nat, ReadUnlock)] = Some s /\ unheld (threads s) /\ threads s = [Outside; WaitWrite; Outside].
Proof.
  eexists. split; [vm_compute; reflexivity|]. split; [|reflexivity]. intros [|[|[|i]]]; unfold at_; cbn; split; try discriminate; destruct i; discriminate.
Qed.
