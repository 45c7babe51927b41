From Verif Require Import Base SwapBufferModel SwapBufferSpec SwapBufferProofs.

(** Every interleaving of a producer (which puts a value before each apply) with a consumer
    is one the view specification allows: reads pick up the latest published value, and what
    the consumer sees through the returned pointer is exactly that value until its next read. *)
Theorem c38_swap_buffer_latest_value :
  forall (A : Type) (v0 : A) (ls : list (label A)) s es,
    run (init v0) ls = Some (s, es) ->
    puts_first false es ->
    exists v, allowed_all (mkView None v0 v0) es v.
Proof.
  exact (fun A v0 ls s es R P =>
    match run_inv ls (init v0) (mkView None v0 v0) s es (init_inv v0) R P with
    | ex_intro _ v (conj H _) => ex_intro _ v H end).
Qed.
Print Assumptions c38_swap_buffer_latest_value.

(** At every moment the slot the producer writes to is not the one the consumer reads,
    whatever the producer does, and both are slots of the buffer. *)
Theorem c38_swap_buffer_slots_disjoint :
  forall (A : Type) (v0 : A) (ls : list (label A)) s es,
    run (init v0) ls = Some (s, es) ->
    (write s <> read s /\ write s < 3 /\ read s < 3)%N.
Proof.
  exact (fun A v0 ls s es R =>
    match run_slots ls (init v0) s es (inv0_of_inv _ _ (init_inv v0)) R with
    | H => inv_slots s _ (inv_of_inv0 s H) end).
Qed.
Print Assumptions c38_swap_buffer_slots_disjoint.

(** A history with an apply racing a read; the consumer sees 20, and keeps seeing it while
    30 is drafted and published. *)
Definition hist : list (label nat) :=
  [WPut 10; WApplyLoad; RReadLoad; WApplyStore; RLook; RReadLoad; WPut 20; WApplyLoad; WApplyStore;
   RReadSwap; RLook; WPut 30; WApplyLoad; RLook; WApplyStore; RLook; RReadLoad; RReadSwap; RLook].
Example c38_hist_runs :
  exists s, run (init 0) hist =
    Some (s, [EPut 10; ETau; EReadDone; EApplied; ELook 0; ETau; EPut 20; ETau; EApplied; EReadDone; ELook 20;
              EPut 30; ETau; ELook 20; EApplied; ELook 20; ETau; EReadDone; ELook 30]).
Proof. eexists. vm_compute. reflexivity. Qed.
Example c38_hist_puts : forall s es, run (init 0) hist = Some (s, es) -> puts_first false es.
Proof. intros s es. vm_compute. intros [= _ <-]. cbn. repeat split. Qed.
