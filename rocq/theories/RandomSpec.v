(** What users rely on from the generators. *)
From Verif Require Import Base RandomModel.
Local Open Scope N_scope.

(** [f] runs through all of 1..m in one cycle: from any x every y is reached in exactly one number of steps below m,
    and after m steps the cycle repeats. *)
Definition one_cycle (f : N -> N) (m : N) : Prop :=
  forall x, 1 <= x <= m ->
    N.iter m f x = x /\
    (forall k, 1 <= N.iter k f x <= m) /\
    forall y, 1 <= y <= m -> exists! k, k < m /\ N.iter k f x = y.

(** The fields are 32-bit. *)
Definition words (s : xorwow_state) : Prop := a s < 2 ^ 32 /\ b s < 2 ^ 32 /\ c s < 2 ^ 32 /\ d s < 2 ^ 32 /\ counter s < 2 ^ 32.
