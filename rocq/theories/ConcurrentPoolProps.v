From Verif Require Import Base ConcurrentPoolModel ConcurrentPoolSpec ConcurrentPoolProofs.

(** For every pool size dividing the index modulus and every interleaving of one producer
    (which keeps at most Max items staged or unpopped) with any number of consumers, histories of
    any length: committed items are popped in commit order, each by one pop, uncommitted ones
    never, and the popped reference shows the item until it is stored over. *)
Theorem c40_pool_in_order_exactly_once_partial :
  forall (A : Type) (B Max : N), (0 < Max)%N -> (Max < B)%N -> (B mod Max = 0)%N ->
  forall (ls : list (label A)) s es,
    run B Max init ls = Some (s, es) ->
    all (producer_ok (N.to_nat Max)) start es ->
    all (pool_ok (N.to_nat Max)) start es.
Proof.
  exact (fun A B Max H1 H2 H3 ls s es R C =>
    proj1 (run_inv B Max H1 H2 H3 ls init start s es (init_inv B Max H1 H2 H3) R C)).
Qed.
Print Assumptions c40_pool_in_order_exactly_once_partial.

(** Missing from the property: pool sizes that do not divide 2^32. There, after 2^32 - 1 items,
    two items pushed together share a slot and the first is lost, although the producer keeps
    well within the pool size. *)
Theorem c40_pool_size_not_dividing_refuted :
  exists (ls : list (label nat)) s es,
    run (2 ^ 32) 3 init ls = Some (s, es) /\
    all (producer_ok 3) start es /\ ~ all (pool_ok 3) start es.
Proof. exact wrap_overwrites. Qed.
Print Assumptions c40_pool_size_not_dividing_refuted.

Definition hist : list (label nat) :=
  [PBegin; PPush 10; PPush 11; CLoad 0; PCommit false; CLoad 1; CLoad 2; CCas 1 false; CCas 2 false; CLook 1;
   PPush 12; PCommit false; CLoad 0; CCas 0 true; CLoad 0; PCommit false; CCas 0 false; CLoad 2; CCas 2 false; CLook 2].
Example c40_hist_runs :
  exists s, run (2 ^ 32) 2 init hist =
    Some (s, [EBegin; EPush 10; EPush 11; EEmpty 0; ECommitted; ELoad 1; ELoad 2; EPopped 1; ELost 2 false;
              ELook 1 (Some 10); EPush 12; ETau; ELoad 0; ELost 0 true; ELoad 0; ECommitted; ELost 0 false; ELoad 2;
              EPopped 2; ELook 2 (Some 11)]).
Proof. eexists. vm_compute. reflexivity. Qed.
Example c40_hist_producer_ok :
  forall s es, run (2 ^ 32) 2 (@init nat) hist = Some (s, es) -> all (producer_ok (N.to_nat 2)) (@start nat) es.
Proof. intros s es. destruct c40_hist_runs as [s0 ->]. intros [= _ <-]. cbn. repeat split; lia. Qed.
