(** What C82 and C83 mean: IEEE 754's meaning of the bits, in multiples of the smallest positive number. *)
From Verif Require Import Base FloatModel.
Local Open Scope Z_scope.

(** A format with at least one bit of mantissa and two of exponent, and a word that holds such a number. *)
Definition sensible (F : format) : Prop := (1 <= mw F)%N /\ (2 <= ew F)%N.
Definition word (F : format) (a : N) : Prop := (a < 2 ^ (1 + ew F + mw F))%N.

Definition exponent (F : format) (a : N) : N := ((a / 2 ^ mw F) mod 2 ^ ew F)%N.
Definition mantissa (F : format) (a : N) : N := (a mod 2 ^ mw F)%N.
Definition negative (F : format) (a : N) : Prop := (2 ^ (ew F + mw F) <= a)%N.

(** Neither infinite nor a NaN; infinite; not subnormal. *)
Definition finite (F : format) (a : N) : Prop := (exponent F a < 2 ^ ew F - 1)%N.
Definition infinite (F : format) (a : N) : Prop := exponent F a = (2 ^ ew F - 1)%N /\ mantissa F a = 0%N.
Definition not_a_number (F : format) (a : N) : Prop := exponent F a = (2 ^ ew F - 1)%N /\ mantissa F a <> 0%N.
Definition normal (F : format) (a : N) : Prop := finite F a /\ exponent F a <> 0%N.

(** The value of a finite number. The unit is the least positive number: 2^-149 for 32 bits, 2^-1074 for 64 bits. *)
Definition absolute (F : format) (a : N) : Z :=
  if (exponent F a =? 0)%N then Z.of_N (mantissa F a)
  else (2 ^ Z.of_N (mw F) + Z.of_N (mantissa F a)) * 2 ^ (Z.of_N (exponent F a) - 1).
Definition float_value (F : format) (a : N) : Z := if (2 ^ (ew F + mw F) <=? a)%N then - absolute F a else absolute F a.

(** The numbers that are the value of some word. *)
Definition representable (F : format) (v : Z) : Prop := exists a, word F a /\ finite F a /\ float_value F a = v.

(** [n] representable numbers are above the lower and not above the upper of [x] and [y]. *)
Definition apart (F : format) (x y : Z) (n : nat) : Prop :=
  exists l, NoDup l /\ (forall v, In v l <-> representable F v /\ Z.min x y < v <= Z.max x y) /\ length l = n.

Definition power_of_2 (v : Z) : Prop := exists k, 0 <= k /\ v = 2 ^ k.
