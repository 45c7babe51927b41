(** The allocations a report lists: pointer, file and line. *)
From Verif Require Import Base DebugModel.

Definition listed (r : list (N * list (N * N))) : list entry :=
  flat_map (fun f => map (fun i => (snd i, (fst f, fst i))) (snd f)) r.
