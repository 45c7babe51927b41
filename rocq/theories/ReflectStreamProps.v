(** C59: run-length encoding streams. *)
From Verif Require Import Base ReflectStreamModel ReflectStreamSpec ReflectStreamProofs.
Local Open Scope N_scope.

(** Full statement (C59): whatever is written through a run-length encoding writer, in whatever pieces, is read back through a
    run-length encoding reader with the same configuration, in whatever pieces, and the reader takes exactly the bytes the
    writer produced. It is false when a WriteContinue goes on with a run that has just reached its greatest length, and for
    the configurations with 64-bit counts. Programs of Write and Flush: *)
Theorem c59_transparent_partial : forall mask size p q,
  (1 <= size < 8)%nat -> (forall d, ~ In (WriteContinue d) p) -> read_modes q = write_modes p ->
  exists r out, writes mask size start (p ++ [WriteFlush]) = Some (r, out) /\
  forall rest, exists r', reads mask size start q (out ++ rest) = Some (r', written p, rest).
Proof.
  intros mask size p q Hs W M. destruct (round_trip mask size Hs p q (only_writes mask size p W start) M) as (r & out & E & Q). exists r, out. split; [exact E|]. intros rest. destruct (Q rest) as (r' & E' & _). eauto.
Qed.
Print Assumptions c59_transparent_partial.

Definition zeros (b : N) : bool := b =? 0.

Example transparent_applies :
  writes zeros 1 start ([Write [1; 0; 0]; Write [0; 2]; WriteFlush; Write [0]] ++ [WriteFlush]) = Some (mkRun 0 0, [1; 0; 2; 2; 0; 0]) /\
  read_modes [Read 2; Read 4] = write_modes [Write [1; 0; 0]; Write [0; 2]; WriteFlush; Write [0]] /\
  reads zeros 1 start [Read 2; Read 4] [1; 0; 2; 2; 0; 0] = Some (mkRun 0 0, [1; 0; 0; 0; 2; 0], []).
Proof. repeat split; reflexivity. Qed.

(** With WriteContinue, as long as no WriteContinue spills over the end of a run of the greatest length; the reader reads by
    ReadContinue what was written by WriteContinue. *)
Theorem c59_continue_partial : forall mask size p q,
  (1 <= size < 8)%nat -> no_spills mask size start p -> read_modes q = write_modes p ->
  exists r out, writes mask size start (p ++ [WriteFlush]) = Some (r, out) /\
  forall rest, exists r', reads mask size start q (out ++ rest) = Some (r', written p, rest).
Proof.
  intros mask size p q Hs W M. destruct (round_trip mask size Hs p q W M) as (r & out & E & Q). exists r, out. split; [exact E|]. intros rest. destruct (Q rest) as (r' & E' & _). eauto.
Qed.
Print Assumptions c59_continue_partial.

Example continue_applies :
  no_spills zeros 1 start [Write [0; 0]; WriteContinue [0; 0; 5; 0]; WriteContinue [0; 0]; Write [7]] /\
  writes zeros 1 start [Write [0; 0]; WriteContinue [0; 0; 5; 0]; WriteContinue [0; 0]; Write [7]; WriteFlush] = Some (mkRun 0 0, [0; 3; 5; 0; 0; 0; 7]) /\
  read_modes [Read 2; ReadContinue 6; Read 1] = write_modes [Write [0; 0]; WriteContinue [0; 0; 5; 0]; WriteContinue [0; 0]; Write [7]].
Proof. split; [|split; reflexivity]. cbn. intuition congruence. Qed.

(** A zero, and 257 more by WriteContinue, with counts of one byte: the first 256 fill the run. And with counts of eight bytes
    nothing can be written. *)
Theorem c59_refuted :
  (exists r out, writes zeros 1 start [Write [0]; WriteContinue (repeat 0 257); WriteFlush] = Some (r, out) /\
     ~ exists r', reads zeros 1 start [Read 1; ReadContinue 257] out = Some (r', 0 :: repeat 0 257, [])) /\
  (forall mask r b d, write mask 8 r (b :: d) = None).
Proof.
  split.
  - eexists _, _. split; [vm_compute; reflexivity|]. intros [r' H]. vm_compute in H. discriminate.
  - reflexivity.
Qed.
Print Assumptions c59_refuted.

(** A run of a byte that is encoded takes one byte and its count; bytes that are not encoded are stored as they are. *)
Theorem c59_stored : forall mask size b n d,
  (1 <= size < 8)%nat ->
  (mask b = true -> 1 <= N.of_nat n <= 2 ^ (8 * N.of_nat size) ->
     exists r, writes mask size start [Write (repeat b n); WriteFlush] = Some (r, b :: to_bytes size (N.of_nat n - 1))) /\
  ((forall x, In x d -> mask x = false) -> writes mask size start [Write d; WriteFlush] = Some (start, d)).
Proof. intros mask size b n d Hs. split; [now apply stored_run|now apply stored_plain]. Qed.
Print Assumptions c59_stored.

Example stored_applies :
  writes zeros 2 start [Write (repeat 0 300); WriteFlush] = Some (mkRun 0 0, [0; 43; 1]) /\ writes zeros 2 start [Write [1; 2; 2]; WriteFlush] = Some (start, [1; 2; 2]).
Proof. split; vm_compute; reflexivity. Qed.
