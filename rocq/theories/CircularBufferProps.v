From Verif Require Import Base CircularBufferModel CircularBufferSpec CircularBufferProofs.

(** For every slot count M >= 1 and every interleaving of one producer with one consumer, the
    observable history is one of a FIFO of capacity M - 1. *)
Theorem c39_circular_buffer_bounded_fifo :
  forall (A : Type) (M : nat), 0 < M ->
  forall (ls : list (label A)) s es,
    run M init ls = Some (s, es) ->
    exists f, allowed_all (M - 1) (mkFifo [] None None None) es f.
Proof.
  exact (fun A M HM ls s es R =>
    match run_inv M HM ls init _ s es (init_inv M HM) R with
    | ex_intro _ f (conj H _) => ex_intro _ f H end).
Qed.
Print Assumptions c39_circular_buffer_bounded_fifo.

(** A history with wrap-around: 3 slots, an add of three items takes two, the producer stores
    while the consumer holds the enumerable. *)
Definition hist : list (label nat) :=
  [PAddMany [1; 2; 3]; PStore; CGetEnumerable; PStore; PPublish; CRelease; CGetEnumerable; PAdd 4; PPublish;
   CLook 0; CLook 1; CRelease; PAdd 5; PStore; PPublish; CGetLast; PAdd 6; CSetStart; PStore; PPublish;
   CGetEnumerable; CLook 0; CRelease].
Example c39_hist_runs :
  exists s, run 3 init hist =
    Some (s, [EAddStart [1; 2; 3]; ETau; EEnum 0; ETau; EAdded 2; ERelease; EEnum 2; EAddStart [4]; EAdded 0;
              ELook 0 (Some 1); ELook 1 (Some 2); ERelease; EAddStart [5]; ETau; EAdded 1; ELastSeen;
              EAddStart [6]; ESkip; ETau; EAdded 1; EEnum 1; ELook 0 (Some 6); ERelease]).
Proof. eexists. vm_compute. reflexivity. Qed.
