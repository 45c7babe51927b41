From Verif Require Import Base IDGeneratorModel IDGeneratorSpec IDGeneratorProofs.

(** For every capacity, number of threads and interleaving in which only outstanding IDs are
    recycled: an ID is issued only when nobody holds it and it is below the capacity, and an
    attempt fails only if each ID was outstanding at some moment of the attempt. *)
Theorem c35_ids_issued_when_free :
  forall W n, 0 < W -> 0 < n ->
  forall ls s es,
    run W (create W n) ls = Some (s, es) ->
    recycles_held (fun _ => false) es ->
    exists v, allowed_all n start es v.
Proof.
  exact (fun W n HW Hn ls s es R H =>
    match run_inv W HW ls (create W n) start s es (create_inv W HW n Hn) R H with
    | ex_intro _ v (conj A _) => ex_intro _ v A end).
Qed.
Print Assumptions c35_ids_issued_when_free.

(** Hence the IDs held at any moment are pairwise distinct and below the capacity. *)
Theorem c35_held_ids_distinct :
  forall W n, 0 < W -> 0 < n ->
  forall ls s es,
    run W (create W n) ls = Some (s, es) ->
    recycles_held (fun _ => false) es ->
    NoDup (holding es) /\ forall i, In i (holding es) -> i < n.
Proof.
  intros W n HW Hn ls s es R H.
  destruct (run_inv W HW ls (create W n) start s es (create_inv W HW n Hn) R H) as (v & A & _).
  destruct (allowed_holding n es start v [] A (NoDup_nil _)) as (N & _ & B);
    [cbn; intros; split; [tauto|discriminate] | cbn; tauto | exact (conj N B)].
Qed.
Print Assumptions c35_held_ids_distinct.

(** And whenever some ID below the capacity is not held (never issued, or recycled), an
    attempt that runs without interference obtains one. *)
Theorem c35_free_id_obtainable :
  forall W n, 0 < W -> 0 < n ->
  forall ls s es t i,
    run W (create W n) ls = Some (s, es) ->
    recycles_held (fun _ => false) es ->
    i < n -> ~ In i (holding es) ->
    pcs s t = TIdle ->
    exists k s' es' id, run W s (Start t :: repeat (Step t) k) = Some (s', es' ++ [EGot t id]).
Proof.
  intros W n HW Hn ls s es t i R H Hi Hni Ht.
  destruct (run_inv W HW ls (create W n) start s es (create_inv W HW n Hn) R H) as (v & A & I & Z).
  destruct (allowed_holding n es start v [] A (NoDup_nil _)) as (N & O & B);
    [cbn; intros; split; [tauto|discriminate] | cbn; tauto |].
  destruct (solo W HW s v t i I Ht) as (k & s' & es' & R' & G).
  - rewrite Z. exact Hi.
  - destruct (out v i) eqn:X; [exfalso; apply Hni, O, X|reflexivity].
  - destruct G as (es'' & id & ->). exists k, s', es'', id. exact R'.
Qed.
Print Assumptions c35_free_id_obtainable.

(** Three IDs, samples of two bytes, three threads: two racing attempts, one failing, a
    recycle racing another attempt. *)
Definition hist : list label :=
  [Start 0; Start 1; Step 0; Step 1; Step 0; Step 1; Step 1; Start 0; Step 0; Step 0; Step 0;
   Start 2; Step 2; Step 2; Step 2; Recycle 1; Start 2; Step 2; Step 2; Step 2].
Example c35_hist_runs :
  exists s, run 2 (create 2 3) hist =
    Some (s, [EStart 0; EStart 1; ETau; ETau; EGot 0 0; ETau; EGot 1 1; EStart 0; ETau; ETau; EGot 0 2;
              EStart 2; ETau; ETau; EFail 2; ERecycled 1; EStart 2; ETau; ETau; EGot 2 1]).
Proof. eexists. vm_compute. reflexivity. Qed.
Example c35_hist_valid : forall s es, run 2 (create 2 3) hist = Some (s, es) -> recycles_held (fun _ => false) es.
Proof. intros s es. vm_compute. intros [= _ <-]. cbn. repeat split. Qed.
