(** What copying a collection through reflection must give. *)
From Verif Require Import Base CollectionModel CollectionSpec ContainerModel ContainerSpec.

(** A collection that starts as [s0], and has had any history of calls by index and never ran out of memory, is copied into
    the new collection [t0], with memory for every insertion, as one that lists the same elements in the same order and shows, for every later history, what a
    plain sequence with these elements shows. *)
Definition copies {A St Tt} (I : interface A St) (s0 : St) (J : interface A Tt) (t0 : Tt) : Prop :=
  forall dtor dtor' (ops : list (op A)) i ordered env fuel,
    in_range_run [] ops -> (forall k, grow_ok (env k) = true /\ node_ok (env k) = true) -> by_contents i -> length (fst (plain_run [] ops)) < fuel ->
    exists s rs t, run I dtor s0 ops = Some (s, rs) /\ copy_collection I J i ordered env fuel t0 (Some s) = Some (Built t) /\
      step J dtor' t Forward = Some (t, RElements (fst (plain_run [] ops)), []) /\
      forall later, in_range_run (fst (plain_run [] ops)) later ->
        exists t' rs', run J dtor' t later = Some (t', rs') /\ map (fun p => CollectionSpec.show (fst p)) rs' = snd (plain_run (fst (plain_run [] ops)) later).
