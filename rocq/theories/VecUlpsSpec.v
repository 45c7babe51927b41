(** Which lanes the comparison is right for. *)

From Verif Require Import Base FloatModel FloatSpec VecUlpsModel.
Local Open Scope N_scope.

(** A number of 32 bits that is zero or positive and not NaN. *)
Definition positive (a : N) : Prop :=
  word float32 a /\ ~ negative float32 a /\ ~ not_a_number float32 a.

(** A number of 32 bits below zero (or the negative zero) and not NaN. *)
Definition below_zero (a : N) : Prop :=
  word float32 a /\ negative float32 a /\ ~ not_a_number float32 a.

(** An allowance that is not negative as an int32_t. *)
Definition allowance (m : N) : Prop := m < 2 ^ 31.

(** Both numbers of the lane are positive. *)
Definition positive_lane (x : lane) : Prop :=
  positive (la x) /\ positive (lb x) /\ allowance (lm x).

(** The numbers of the lane have different signs. *)
Definition signs_differ (x : lane) : Prop :=
  word float32 (la x) /\ word float32 (lb x)
  /\ ~ (negative float32 (la x) <-> negative float32 (lb x)).
