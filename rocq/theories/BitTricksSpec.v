(** What the bit tricks are documented to compute, stated on bits and powers of two only. *)
From Verif Require Import Base Word.
Local Open Scope N_scope.

(** [r] is the lowest position's bit of [x] having value [b]. *)
Definition is_lowest (b : bool) (x r : N) : Prop :=
  exists k, r = 2 ^ k /\ N.testbit x k = b /\ forall j, j < k -> N.testbit x j = negb b.

Definition is_highest_set (x r : N) : Prop :=
  exists k, r = 2 ^ k /\ N.testbit x k = true /\ forall j, k < j -> N.testbit x j = false.

Definition power_of_two (x : N) : Prop := exists k, x = 2 ^ k.

(** [r] is the least power of two that is at least [x]. *)
Definition is_least_power_ge (x r : N) : Prop :=
  power_of_two r /\ x <= r /\ forall p, power_of_two p -> x <= p -> r <= p.

(** [r] is the least number of the form 2^k - 1 that is at least [x]. *)
Definition is_least_mask_ge (x r : N) : Prop :=
  (exists k, r = 2 ^ k - 1) /\ x <= r /\ forall k, x <= 2 ^ k - 1 -> r <= 2 ^ k - 1.

(** [n] is the number of consecutive unset bits from position 0 of a [w]-bit value
    (all [w] of them for 0). *)
Definition is_trailing_zeros (w x n : N) : Prop :=
  n <= w /\ (n < w -> N.testbit x n = true) /\ forall j, j < n -> N.testbit x j = false.

(** IEEE-754 fields for [mb] mantissa bits and [eb] exponent bits. *)
Definition f_mant (mb x : N) : N := x mod 2 ^ mb.
Definition f_exp (mb eb x : N) : N := (x / 2 ^ mb) mod 2 ^ eb.
Definition f_neg (mb eb x : N) : bool := N.testbit x (mb + eb).
Definition f_finite (mb eb x : N) : Prop := f_exp mb eb x <> 2 ^ eb - 1.
Definition f_normal (mb eb x : N) : Prop := f_exp mb eb x <> 0 /\ f_finite mb eb x.
(** Magnitude of a finite float in units of the smallest subnormal, an integer.
    The unit is a power of two, so the value is a power of two iff this is. *)
Definition f_units (mb eb x : N) : N :=
  if f_exp mb eb x =? 0 then f_mant mb x
  else (2 ^ mb + f_mant mb x) * 2 ^ (f_exp mb eb x - 1).
(** The float's value is a power of two (positive or negative exponent). *)
Definition f_power_of_two (mb eb x : N) : Prop :=
  f_finite mb eb x /\ f_neg mb eb x = false /\ power_of_two (f_units mb eb x).
