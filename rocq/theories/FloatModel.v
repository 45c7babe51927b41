(** Model of the functions on the bits of floating point numbers in CommonC/Maths.h and CommonC/BitTricks.h. A number
    is its bits: a sign, [ew] bits of exponent and [mw] bits of mantissa, in the format of IEEE 754. *)
From Verif Require Import Base.
Local Open Scope N_scope.

Record format := mkFormat { mw : N; ew : N }.
Definition float32 : format := mkFormat 23 8.
Definition float64 : format := mkFormat 52 11.

(** The bits without the sign, the exponent and the mantissa; signbit of math.h *)
Definition magnitude_bits (F : format) (a : N) : N := a mod 2 ^ (ew F + mw F).
Definition signbit (F : format) (a : N) : bool := N.testbit a (ew F + mw F).
Definition is_nan (F : format) (a : N) : bool := (2 ^ ew F - 1) * 2 ^ mw F <? magnitude_bits F a.

(** C's == on two numbers: a NaN is not equal to anything, and the two zeros are equal *)
Definition float_eq (F : format) (a b : N) : bool :=
  negb (is_nan F a) && negb (is_nan F b) && ((a =? b) || ((magnitude_bits F a =? 0) && (magnitude_bits F b =? 0))).

(** Maths.h 138-141: CCFloatGetUlps, on uint32_t *)
Definition get_ulps (a b : N) : N := if b <? a then a - b else b - a.

(** Maths.h 143-148: CCFloatEqualUlps *)
Definition equal_ulps (a b max_ulps : N) : bool :=
  if negb (Bool.eqb (signbit float32 a) (signbit float32 b)) then float_eq float32 a b
  else get_ulps a b <=? max_ulps.

(** BitTricks.h 226-231: CCBitFloat32IsPowerOf2, and 233-238: CCBitFloat64IsPowerOf2; the mask has the mantissa's bits *)
Definition is_power_of_2 (F : format) (a : N) : bool :=
  negb (float_eq F a 0) && (N.land a (N.ones (mw F)) =? 0).
