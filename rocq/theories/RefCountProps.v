From Verif Require Import Base RefCountModel RefCountSpec RefCountProofs.

(** Any number of threads, any interleaving and history: whoever holds a reference finds the memory
    allocated and the count right; the destructor and the deallocation run at most once, after the
    last release, never while a reference is held. *)
Theorem c32_destroyed_after_last_release :
  forall t ls s es, run (allocate false) ls = Some (s, es) ->
    all client_ok (start t) es -> all memory_ok (start t) es.
Proof. exact (fun t ls s es R C => proj1 (run_inv ls _ _ None s es (init_inv t) R C)). Qed.
Print Assumptions c32_destroyed_after_last_release.

(** And they do run: once every call has returned and no reference is left, both ran exactly once. *)
Theorem c32_destroyed_exactly_once :
  forall t ls s es, run (allocate false) ls = Some (s, es) -> all client_ok (start t) es ->
    (forall u, pcs s u = Idle) ->
    let v := fold_left next es (start t) in
    (owners v = [] -> destroyed v = 1 /\ deallocated v = 1 /\ released s = true) /\
    (owners v <> [] -> destroyed v = 0 /\ deallocated v = 0 /\ released s = false).
Proof.
  intros t ls s es R C Hid v. destruct (proj2 (run_inv ls _ _ None s es (init_inv t) R C)) as [who []].
  fold v in i_rc, i_dtor, i_who. destruct who as [w|].
  - destruct i_who as (_ & _ & _ & D & _). rewrite Hid in D. destruct D as [[D _]|[D _]]; discriminate.
  - destruct i_who as (_ & [A|A]); split; intros H; destruct A as (A1 & A2 & A3 & A4); auto; contradiction.
Qed.
Print Assumptions c32_destroyed_exactly_once.

(** Static memory is never destroyed, whatever is done with it. *)
Theorem c32_static_memory_never_destroyed :
  forall v ls s es, run (allocate true) ls = Some (s, es) -> all static_ok v es.
Proof. exact (fun v ls s es R => static_run ls (allocate true) v s es eq_refl eq_refl (fun _ => eq_refl) R). Qed.
Print Assumptions c32_static_memory_never_destroyed.

Definition hist : list label :=
  [SetDestructor 0 (Some 77); Retain 0; Give 0 1; Retain 1; Free 0; RefCount 1; Give 1 2; Free 1; Free 2; Step 2; Step 2].
Example c32_hist_runs : exists s, run (allocate false) hist =
  Some (s, [ESet 0 true (Some 77); ERetain 0 true; EGive 0 1; ERetain 1 true; EFree 0 true; ECount 1 true 2; EGive 1 2;
            EFree 1 true; EFree 2 true; EDestruct (Some 77); EDealloc]).
Proof. eexists. vm_compute. reflexivity. Qed.
Example c32_hist_ok : forall s es, run (allocate false) hist = Some (s, es) -> all client_ok (start 0) es.
Proof. intros s es. destruct c32_hist_runs as [s0 ->]. intros [= _ <-]. cbn. repeat split; auto; lia. Qed.
